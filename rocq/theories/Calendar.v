(** src/calendar.rs and src/calendar/calendar_component.rs *)
From Verif Require Import Str Fold ValueTypes Property Chrono DateTime Component.

(** [CalendarComponent], src/calendar/calendar_component.rs:10-16. *)
Inductive cal_component :=
| CTodo (i : inner)
| CEvent (i : inner)
| CVenue (i : inner)
| COther (o : other).

(** [component_kind] of the contained value, src/components.rs:440-446 and other.rs:13-15. *)
Definition cc_kind (c : cal_component) : str :=
  match c with
  | CTodo _ => lit "VTODO" | CEvent _ => lit "VEVENT" | CVenue _ => lit "VVENUE"
  | COther (k, _) => k
  end.
Definition cc_inner (c : cal_component) : inner :=
  match c with CTodo i | CEvent i | CVenue i => i | COther (_, i) => i end.
(** [as_event], [as_todo], src/calendar/calendar_component.rs:20-32. *)
Definition as_event (c : cal_component) : option inner :=
  match c with CEvent i => Some i | _ => None end.
Definition as_todo (c : cal_component) : option inner :=
  match c with CTodo i => Some i | _ => None end.

(** [CalendarComponent::fmt_write], src/calendar/calendar_component.rs:60-67. *)
Definition cc_write {U : Unicode} (e : env) (c : cal_component) (n : nat) : outcome (str * nat) :=
  inner_write e (cc_kind c) (cc_inner c) n.

(** [Calendar], src/calendar.rs:64-69. *)
Record calendar := mk_calendar
  { c_props : list property; c_comps : list cal_component }.

(** [Default for Calendar], src/calendar.rs:71-82, [new], 86-88. *)
Definition default_props : list property :=
  [prop_new (lit "VERSION") (lit "2.0"); prop_new (lit "PRODID") (lit "ICALENDAR-RS");
   prop_new (lit "CALSCALE") (lit "GREGORIAN")].
Definition cal_new : calendar := mk_calendar default_props [].
(** [Calendar::empty], src/calendar.rs:96-101. *)
Definition cal_empty : calendar := mk_calendar [] [].
(** [FromIterator], src/calendar.rs:287-293; [From<[T; N]>], 272-276; [From<C>], 278-285. *)
Definition cal_from_iter (l : list cal_component) : calendar := mk_calendar default_props l.
Definition cal_from_one (c : cal_component) : calendar := mk_calendar default_props [c].
(** [Calendar::push] (and [add]), src/calendar.rs:105-107, 140-143. *)
Definition cal_push (c : calendar) (x : cal_component) : calendar :=
  mk_calendar (c_props c) (c_comps c ++ [x]).
(** [Calendar::extend], src/calendar.rs:131-137. *)
Definition cal_extend (c : calendar) (l : list cal_component) : calendar :=
  mk_calendar (c_props c) (c_comps c ++ l).
(** [Calendar::append], src/calendar.rs:110-112: both calendars afterwards. *)
Definition cal_append (c d : calendar) : calendar * calendar :=
  (mk_calendar (c_props c) (c_comps c ++ c_comps d), mk_calendar (c_props d) []).
(** [Calendar::append_property], src/calendar.rs:115-118. *)
Definition cal_append_property (c : calendar) (p : property) : calendar :=
  mk_calendar (c_props c ++ [p]) (c_comps c).
(** [Calendar::property_value], src/calendar.rs:121-128. *)
Definition cal_property_value (c : calendar) (key : str) : option str :=
  option_map p_val (find (fun p => str_eqb (p_key p) key) (c_props c)).
(** [Calendar::done], src/calendar.rs:215-220. *)
Definition cal_done (c : calendar) : calendar * calendar := (c, cal_empty).

Definition or_else {A} (a b : option A) : option A := match a with Some _ => a | None => b end.

(** [name]/[get_name], src/calendar.rs:147-157. *)
Definition cal_name (c : calendar) (s : str) : calendar :=
  cal_append_property (cal_append_property c (prop_new (lit "NAME") s)) (prop_new (lit "X-WR-CALNAME") s).
Definition cal_get_name (c : calendar) : option str :=
  or_else (cal_property_value c (lit "NAME")) (cal_property_value c (lit "X-WR-CALNAME")).
(** [description]/[get_description], src/calendar.rs:160-170. *)
Definition cal_description (c : calendar) (s : str) : calendar :=
  cal_append_property (cal_append_property c (prop_new (lit "DESCRIPTION") s))
                      (prop_new (lit "X-WR-CALDESC") s).
Definition cal_get_description (c : calendar) : option str :=
  or_else (cal_property_value c (lit "DESCRIPTION")) (cal_property_value c (lit "X-WR-CALDESC")).
(** [timezone]/[get_timezone], src/calendar.rs:174-184 (the getter reads TIMEZONE_ID). *)
Definition cal_timezone (c : calendar) (s : str) : calendar :=
  cal_append_property (cal_append_property c (prop_new (lit "TIMEZONE-ID") s))
                      (prop_new (lit "X-WR-TIMEZONE") s).
Definition cal_get_timezone (c : calendar) : option str :=
  or_else (cal_property_value c (lit "TIMEZONE_ID")) (cal_property_value c (lit "X-WR-TIMEZONE")).
(** [ttl]/[get_ttl], src/calendar.rs:187-211. *)
Definition cal_ttl (c : calendar) (d : duration) : calendar :=
  cal_append_property
    (cal_append_property c
       (append_parameter (prop_new (lit "REFRESH-INTERVAL") (dur_text d)) (lit "VALUE", lit "DURATION")))
    (prop_new (lit "X-PUBLISHED-TTL") (dur_text d)).
Definition cal_get_ttl {I : Iso8601} (c : calendar) : option duration :=
  match or_else
    (match cal_property_value c (lit "REFRESH-INTERVAL") with Some s => iso_parse s | None => None end)
    (match cal_property_value c (lit "X-PUBLISHED-TTL") with Some s => iso_parse s | None => None end)
  with Some n => dur_from_std n | None => None end.

Fixpoint ccs_write {U : Unicode} (e : env) (cs : list cal_component) (n : nat)
  : outcome (str * nat) :=
  match cs with
  | [] => Ret ([], n)
  | c :: r => obind (cc_write e c n) (fun '(s, n') =>
              obind (ccs_write e r n') (fun '(t, n'') => Ret (s ++ t, n'')))
  end.

(** [Calendar::fmt_write], [Display], [TryInto<String>], src/calendar.rs:223-256. *)
Definition cal_write {U : Unicode} (e : env) (c : calendar) : outcome str :=
  obind (props_write (c_props c)) (fun pt =>
  obind (ccs_write e (c_comps c) 0) (fun '(ct, _) =>
  Ret (lit "BEGIN:VCALENDAR" ++ crlf ++ pt ++ ct ++ lit "END:VCALENDAR" ++ crlf))).
