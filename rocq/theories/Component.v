(** src/components.rs and src/components/{event,todo,venue,other}.rs *)
From Verif Require Import Str Fold ValueTypes Property Chrono DateTime.

(** [InnerComponent], src/components.rs:24-28.  [Other] (src/components/other.rs:4-7) is a name
    with an [InnerComponent]; [Event], [Todo], [Venue], [Alarm] are an [InnerComponent] each
    (event.rs:4, todo.rs:7, venue.rs:5, alarm.rs:61). *)
Inductive inner := mk_inner
  (i_props : list (str * property))
  (i_multi : list (str * list property))
  (i_comps : list (str * inner)).
Definition other := (str * inner)%type.

Definition i_props (i : inner) := match i with mk_inner p _ _ => p end.
Definition i_multi (i : inner) := match i with mk_inner _ m _ => m end.
Definition i_comps (i : inner) := match i with mk_inner _ _ c => c end.

(** [Default for InnerComponent], src/components.rs:23; [Event::new] etc. *)
Definition inner_new : inner := mk_inner [] [] [].

(** [InnerComponent::done], src/components.rs:45-51 (also [Event::done], event.rs:16-20, and the
    same in todo.rs, venue.rs, alarm.rs): the moved-out value and what is left. *)
Definition inner_done (i : inner) : inner * inner := (i, inner_new).

(** [append_property], src/components.rs:399-405 and other.rs:33-39. *)
Definition append_property (i : inner) (p : property) : inner :=
  mk_inner (bt_insert (p_key p) p (i_props i)) (i_multi i) (i_comps i).

(** [append_component], src/components.rs:407-410 and other.rs:47-50. *)
Definition append_component (i : inner) (o : other) : inner :=
  mk_inner (i_props i) (i_multi i) (i_comps i ++ [o]).

(** [InnerComponent::insert_multi], src/components.rs:53-62
    ([append_multi_property], 413-416). *)
Definition insert_multi (i : inner) (p : property) : inner :=
  let v := match map_get (p_key p) (i_multi i) with
           | Some v => v ++ [p]
           | None => [p]
           end in
  mk_inner (i_props i) (bt_insert (p_key p) v (i_multi i)) (i_comps i).

(** [Component::property_value], src/components.rs:89-91. *)
Definition property_value (i : inner) (key : str) : option str :=
  option_map p_val (map_get key (i_props i)).

(** [add_property], src/components.rs:148-150, and [add_multi_property], 159-161. *)
Definition add_property (i : inner) (k v : str) : inner := append_property i (prop_new k v).
Definition add_multi_property (i : inner) (k v : str) : inner := insert_multi i (prop_new k v).

(** [timestamp]/[get_timestamp], src/components.rs:166-173. *)
Definition timestamp (i : inner) (d : ndt) : inner :=
  add_property i (lit "DTSTAMP") (format_utc_date_time d).
Definition get_timestamp (i : inner) : option ndt :=
  match property_value i (lit "DTSTAMP") with Some s => parse_utc_date_time s | None => None end.

(** [get_start]/[get_end], src/components.rs:176-183. *)
Definition get_start {U : Unicode} (i : inner) : option dpt :=
  match map_get (lit "DTSTART") (i_props i) with Some p => dpt_from_property p | None => None end.
Definition get_end {U : Unicode} (i : inner) : option dpt :=
  match map_get (lit "DTEND") (i_props i) with Some p => dpt_from_property p | None => None end.

(** [priority]/[get_priority], src/components.rs:188-210; the argument is a [u32]. *)
Definition priority (i : inner) (n : N) : inner :=
  add_property i (lit "PRIORITY") (dec (N.min n 10)).
Definition get_priority (i : inner) : option N :=
  match property_value i (lit "PRIORITY") with
  | Some s => match parse_uint U32_MAX s with
              | Some n => if (n <=? 10)%N then Some n else None
              | None => None
              end
  | None => None
  end.

(** [summary], [description], [uid], [url] and their getters, src/components.rs:221-254, 277-284. *)
Definition summary (i : inner) (s : str) : inner := add_property i (lit "SUMMARY") s.
Definition get_summary (i : inner) := property_value i (lit "SUMMARY").
Definition description (i : inner) (s : str) : inner := add_property i (lit "DESCRIPTION") s.
Definition get_description (i : inner) := property_value i (lit "DESCRIPTION").
Definition uid (i : inner) (s : str) : inner := add_property i (lit "UID") s.
Definition get_uid (i : inner) := property_value i (lit "UID").
Definition url (i : inner) (s : str) : inner := add_property i (lit "URL") s.
Definition get_url (i : inner) := property_value i (lit "URL").

(** [sequence]/[get_sequence], src/components.rs:257-264. *)
Definition sequence (i : inner) (n : N) : inner := add_property i (lit "SEQUENCE") (dec n).
Definition get_sequence (i : inner) : option N :=
  match property_value i (lit "SEQUENCE") with Some s => parse_uint U32_MAX s | None => None end.

(** [class]/[get_class], src/components.rs:267-274. *)
Definition set_class (i : inner) (c : class) : inner := append_property i (class_to_property c).
Definition get_class (i : inner) : option class :=
  match property_value i (lit "CLASS") with Some s => class_from_str s | None => None end.

(** [last_modified]/[get_last_modified], src/components.rs:289-296 (note the underscore). *)
Definition last_modified (i : inner) (d : ndt) : inner :=
  add_property i (lit "LAST_MODIFIED") (format_utc_date_time d).
Definition get_last_modified (i : inner) : option ndt :=
  match property_value i (lit "LAST_MODIFIED") with
  | Some s => parse_utc_date_time s | None => None end.

(** [created]/[get_created], src/components.rs:301-308. *)
Definition created (i : inner) (d : ndt) : inner :=
  add_property i (lit "CREATED") (format_utc_date_time d).
Definition get_created (i : inner) : option ndt :=
  match property_value i (lit "CREATED") with Some s => parse_utc_date_time s | None => None end.

(** [EventLike::starts]/[ends], src/components.rs:316-327. *)
Definition starts (i : inner) (x : dpt) : inner := append_property i (dpt_to_property x (lit "DTSTART")).
Definition ends (i : inner) (x : dpt) : inner := append_property i (dpt_to_property x (lit "DTEND")).
(** [EventLike::all_day], src/components.rs:332-335. *)
Definition all_day (i : inner) (d : ndate) : inner :=
  append_property (append_property i (naive_date_to_property d (lit "DTSTART")))
                  (naive_date_to_property d (lit "DTEND")).
(** [EventLike::venue], src/components.rs:339-346, [location]/[get_location], 350-357. *)
Definition venue (i : inner) (loc venue_uid : str) : inner :=
  append_property i (append_parameter (prop_new (lit "LOCATION") loc) (lit "VVENUE", venue_uid)).
Definition location (i : inner) (s : str) : inner := add_property i (lit "LOCATION") s.
Definition get_location (i : inner) := property_value i (lit "LOCATION").

(** [Event::status]/[get_status], src/components/event.rs:23-30. *)
Definition event_set_status (i : inner) (s : event_status) : inner :=
  append_property i (event_status_to_property s).
Definition event_get_status (i : inner) : option event_status :=
  match property_value i (lit "STATUS") with Some s => event_status_from_str s | None => None end.

(** src/components/todo.rs:28-77. *)
Definition percent_complete (i : inner) (n : N) : inner :=
  add_property i (lit "PERCENT-COMPLETE") (dec n).
Definition get_percent_complete (i : inner) : option N :=
  match property_value i (lit "PERCENT-COMPLETE") with
  | Some s => parse_uint U8_MAX s | None => None end.
Definition due (i : inner) (x : dpt) : inner := append_property i (dpt_to_property x (lit "DUE")).
Definition get_due {U : Unicode} (i : inner) : option dpt :=
  match map_get (lit "DUE") (i_props i) with Some p => dpt_from_property p | None => None end.
Definition completed (i : inner) (d : ndt) : inner :=
  add_property i (lit "COMPLETED") (format_utc_date_time d).
Definition get_completed (i : inner) : option ndt :=
  match property_value i (lit "COMPLETED") with Some s => parse_utc_date_time s | None => None end.
Definition todo_set_status (i : inner) (s : todo_status) : inner :=
  append_property i (todo_status_to_property s).
Definition todo_get_status (i : inner) : option todo_status :=
  match property_value i (lit "STATUS") with Some s => todo_status_from_str s | None => None end.

(** src/components/venue.rs:26-96: plain text setters and getters. *)
Definition street_address (i : inner) (s : str) := add_property i (lit "STREET-ADDRESS") s.
Definition get_street_address (i : inner) := property_value i (lit "STREET-ADDRESS").
Definition extended_address (i : inner) (s : str) := add_property i (lit "EXTENDED-ADDRESS") s.
Definition get_extended_address (i : inner) := property_value i (lit "EXTENDED-ADDRESS").
Definition locality (i : inner) (s : str) := add_property i (lit "LOCALITY") s.
Definition get_locality (i : inner) := property_value i (lit "LOCALITY").
Definition region (i : inner) (s : str) := add_property i (lit "REGION") s.
Definition get_region (i : inner) := property_value i (lit "REGION").
Definition country (i : inner) (s : str) := add_property i (lit "COUNTRY") s.
Definition get_country (i : inner) := property_value i (lit "COUNTRY").
Definition postal_code (i : inner) (s : str) := add_property i (lit "POSTAL-CODE") s.
Definition get_postal_code (i : inner) := property_value i (lit "POSTAL-CODE").

(** The clock and the random source: the [n]-th reading. *)
Record env := mk_env { now_at : nat -> ndt; uuid_at : nat -> N }.

(** Writing a sequence of properties one after the other. *)
Fixpoint props_write {U : Unicode} (ps : list property) : outcome str :=
  match ps with
  | [] => Ret []
  | p :: r => obind (prop_write p) (fun s => obind (props_write r) (fun t => Ret (s ++ t)))
  end.

(** [Component::fmt_write], src/components.rs:94-120, for a component of kind [kind]
    ([component_kind], 379-381 and other.rs:13-15).  [n] counts the readings of the
    environment so far. *)
Fixpoint inner_write {U : Unicode} (e : env) (kind : str) (i : inner) (n : nat) {struct i}
  : outcome (str * nat) :=
  match i with
  | mk_inner ps ms cs =>
      let '(stamp, n1) :=                                                    (* :97-100 *)
        match map_get (lit "DTSTAMP") ps with
        | Some _ => ([], n)
        | None => (lit "DTSTAMP:" ++ format_utc_date_time (now_at e n) ++ crlf, S n)
        end in
      obind (props_write (map snd ps)) (fun pt =>                            (* :102-104 *)
      let '(u, n2) :=                                                        (* :106-108 *)
        match map_get (lit "UID") ps with
        | Some _ => ([], n1)
        | None => (lit "UID:" ++ fmt_uuid (uuid_at e n1) ++ crlf, S n1)
        end in
      obind (props_write (concat (map snd ms))) (fun mt =>                   (* :110-112 *)
      obind ((fix go (cs : list (str * inner)) (n : nat) : outcome (str * nat) :=
                match cs with                                                (* :114-116 *)
                | [] => Ret ([], n)
                | (k, c) :: r =>
                    obind (inner_write e k c n) (fun '(s, n') =>
                    obind (go r n') (fun '(t, n'') => Ret (s ++ t, n'')))
                end) cs n2) (fun '(ct, n3) =>
      Ret (lit "BEGIN:" ++ kind ++ crlf ++ stamp ++ pt ++ u ++ mt ++ ct
           ++ lit "END:" ++ kind ++ crlf, n3))))                             (* :95, :118 *)
  end.
