(** src/components/alarm.rs *)
From Verif Require Import Str ValueTypes Property Chrono DateTime Component.

(** [Action], src/components/alarm.rs:291-338. *)
Inductive action := Audio | Email | Display | ActionOther (s : str).
Definition action_text (a : action) : str :=
  match a with
  | Audio => lit "AUDIO" | Email => lit "EMAIL" | Display => lit "DISPLAY" | ActionOther s => s
  end.
Definition action_from_str (s : str) : action :=
  match assoc_lit s [("AUDIO", Audio); ("EMAIL", Email); ("DISPLAY", Display)]%string with
  | Some a => a
  | None => ActionOther s
  end.
Definition action_to_property (a : action) : property := prop_new (lit "ACTION") (action_text a).

(** [Repeat], src/components/alarm.rs:342-356. *)
Definition repeat_to_property (n : N) : property := prop_new (lit "REPEAT") (dec n).

(** [Related], src/components/alarm.rs:368-394. *)
Inductive related := RStart | REnd.
Definition related_to_param (r : related) : parameter :=
  (lit "RELATED", match r with RStart => lit "START" | REnd => lit "END" end).
Definition related_from_str (s : str) : option related :=
  assoc_lit s [("START", RStart); ("END", REnd)]%string.

(** [Trigger], src/components/alarm.rs:410-415. *)
Inductive trigger :=
| TDuration (d : duration) (r : option related)
| TDateTime (c : cal_dt).

(** src/components/alarm.rs:427-468. *)
Definition after_start (d : duration) := TDuration d (Some RStart).
Definition after_end (d : duration) := TDuration d (Some REnd).
Definition before_start (d : duration) := TDuration (- d)%Z (Some RStart).
Definition before_end (d : duration) := TDuration (- d)%Z (Some REnd).

(** [From<Trigger> for Property], src/components/alarm.rs:543-560. *)
Definition trigger_to_property (t : trigger) : property :=
  match t with
  | TDuration d (Some r) => append_parameter (prop_new (lit "TRIGGER") (dur_text d)) (related_to_param r)
  | TDuration d None => prop_new (lit "TRIGGER") (dur_text d)
  | TDateTime c => append_parameter (cal_dt_to_property c (lit "TRIGGER")) (lit "VALUE", lit "DATE-TIME")
  end.

(** [TryFrom<&Property> for Trigger], src/components/alarm.rs:516-541. *)
Definition trigger_from_property {I : Iso8601} (p : property) : option trigger :=
  if str_eqb (p_key p) (lit "TRIGGER") then
    let by_duration :=
      let rel := match map_get (lit "RELATED") (p_params p) with
                 | Some s => related_from_str s | None => None end in
      option_map (fun d => TDuration d rel) (parse_duration (p_val p)) in
    match map_get (lit "VALUE") (p_params p) with
    | Some v => if str_eqb v (lit "DATE-TIME") then option_map TDateTime (cal_dt_from_str (p_val p))
                else if str_eqb v (lit "DURATION") then by_duration
                else None
    | None => by_duration
    end
  else None.

(** [From<chrono::Duration> for Property], src/properties.rs:355-359. *)
Definition duration_to_property (d : duration) : property := prop_new (lit "DURATION") (dur_text d).

(** [Alarm::audio], src/components/alarm.rs:100-106. *)
Definition alarm_audio (t : trigger) : inner :=
  append_property (append_property inner_new (action_to_property Audio)) (trigger_to_property t).
(** [Alarm::display], src/components/alarm.rs:128-135. *)
Definition alarm_display (desc : str) (t : trigger) : inner :=
  add_property
    (append_property (append_property inner_new (action_to_property Display)) (trigger_to_property t))
    (lit "DESCRIPTION") desc.
(** [Alarm::duration_and_repeat], src/components/alarm.rs:180-191. *)
Definition duration_and_repeat (i : inner) (d : duration) (n : N) : inner :=
  append_property (append_property i (duration_to_property d)) (repeat_to_property n).

(** [From<Alarm> for Other], src/components.rs:424-428 and 447, and [EventLike::alarm], 361-364. *)
Definition alarm (i : inner) (a : inner) : inner := append_component i (lit "VALARM", a).
