(** Accessors and conversions: src/properties.rs, src/components/alarm.rs, src/components/date_time.rs,
    with the feature [chrono-tz]. *)
From Verif Require Import Str ValueTypes Property Chrono DateTime Component Alarm Calendar.

(** [Property::get_value_as], src/properties.rs:119-124, and [get_param_as], 127-132. *)
Definition get_value_as {T} (p : property) (f : str -> option T) : option T := f (p_val p).
Definition get_param_as {T} (p : property) (k : str) (f : str -> option T) : option T :=
  match map_get k (p_params p) with Some v => f v | None => None end.
(** [Property::from_array], src/properties.rs:96-98 ([P] is converted with [into]). *)
Definition from_array {P} (into : P -> property) (l : list P) : list property := map into l.

(** [Trigger::related], [as_duration], [as_date_time], src/components/alarm.rs:471-492. *)
Definition trigger_related (t : trigger) : option related :=
  match t with TDuration _ r => r | TDateTime _ => None end.
Definition as_duration (t : trigger) : option duration :=
  match t with TDuration d _ => Some d | TDateTime _ => None end.
Definition as_date_time (t : trigger) : option cal_dt :=
  match t with TDuration _ _ => None | TDateTime c => Some c end.
(** [From<Duration>], [From<T>] and [From<(Duration, Related)>] for [Trigger], src/components/alarm.rs:495-514. *)
Definition trigger_from_duration (d : duration) : trigger := TDuration d None.
Definition trigger_from_dt {T} (into : T -> cal_dt) (x : T) : trigger := TDateTime (into x).
Definition trigger_from_pair (q : duration * related) : trigger := TDuration (fst q) (Some (snd q)).
(** [Alarm::email], src/components/alarm.rs:166-174 (not public). *)
Definition alarm_email (desc : str) (t : trigger) (summ : str) : inner :=
  add_property
    (add_property
      (append_property (append_property inner_new (action_to_property Email)) (trigger_to_property t))
      (lit "DESCRIPTION") desc) (lit "SUMMARY") summ.

(** [From<DateTime<Utc>>] and [From<NaiveDateTime>] for [CalendarDateTime], src/components/date_time.rs:185-207. *)
Definition cal_dt_from_utc (d : ndt) : cal_dt := Utc d.
Definition cal_dt_from_naive (d : ndt) : cal_dt := Floating d.
(** The same for [DatePerhapsTime], src/components/date_time.rs:310-320, 333-343, 360-364. *)
Definition dpt_from_cal_dt (c : cal_dt) : dpt := DT c.
Definition dpt_from_utc (d : ndt) : dpt := DT (Utc d).
Definition dpt_from_naive (d : ndt) : dpt := DT (cal_dt_from_naive d).
Definition dpt_from_date (d : ndate) : dpt := DDate d.

(** chrono-tz 0.10: an arbitrary time zone database.  [tz_local z u] is the local time in [z] at the UTC time [u];
    [tz_single z d] is [z.from_local_datetime(d).single()] in UTC.  What they have to satisfy is stated
    with the theorems (SpecAccess.v). *)
Class TzDb := {
  tz : Type;
  tz_name : tz -> str;
  tz_parse : str -> option tz;
  tz_local : tz -> ndt -> ndt;
  tz_single : tz -> ndt -> option ndt }.

(** [NaiveDate::and_hms_opt] with no seconds. *)
Definition and_hm_opt (d : ndate) (h m : N) : option ndt :=
  if (h <? 24)%N && (m <? 60)%N then Some (mk_dt d (mk_time h m 0 0)) else None.

Section Tz.
  Context {Z0 : TzDb}.
  (** [CalendarDateTime::try_into_utc], src/components/date_time.rs:121-131. *)
  Definition try_into_utc (c : cal_dt) : option ndt :=
    match c with
    | Floating _ => None
    | Utc d => Some d
    | WithTimezone d n => match tz_parse n with Some z => tz_single z d | None => None end
    end.
  (** [CalendarDateTime::with_timezone], src/components/date_time.rs:136-141, and [From<(NaiveDateTime, Tz)>], 210-217. *)
  Definition cal_dt_with_timezone (d : ndt) (z : tz) : cal_dt := WithTimezone d (tz_name z).
  (** [CalendarDateTime::from_ymd_hm_tzid], src/components/date_time.rs:145-157, and [ymd_hm_tzid], 173-182. *)
  Definition from_ymd_hm_tzid (y : Z) (mo d h mi : N) (z : tz) : option cal_dt :=
    match from_ymd_opt y mo d with
    | Some x => option_map (fun t => cal_dt_with_timezone t z) (and_hm_opt x h mi)
    | None => None
    end.
  (** [CalendarDateTime::from_date_time], src/components/date_time.rs:161-168, and [with_timezone], 287-295: the
      [DateTime<Tz>] is the UTC time [u] in the zone [z]. *)
  Definition from_date_time (u : ndt) (z : tz) : cal_dt := WithTimezone (tz_local z u) (tz_name z).
  (** [TryFrom<(NaiveDateTime, &str)>], src/components/date_time.rs:220-229 and 346-352 (the error is dropped). *)
  Definition cal_dt_try_from (d : ndt) (s : str) : option cal_dt :=
    match tz_parse s with Some z => Some (cal_dt_with_timezone d z) | None => None end.
  Definition dpt_try_from_pair (d : ndt) (s : str) : option dpt := option_map DT (cal_dt_try_from d s).
End Tz.

(** What [Component::print] and [Calendar::print] write to standard output: src/components.rs:213-218, src/calendar.rs:237-240
    (with the macro [print_crlf], src/lib.rs:19-23). *)
Definition inner_print {U : Unicode} (e : env) (kind : str) (i : inner) : outcome str :=
  obind (inner_write e kind i 0) (fun '(s, _) => Ret (s ++ crlf)).
Definition cal_print {U : Unicode} (e : env) (c : calendar) : outcome str :=
  obind (cal_write e c) (fun s => Ret (s ++ crlf)).
