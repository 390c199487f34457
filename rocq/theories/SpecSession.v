(** Sessions: calendars that are built, edited, saved and loaded again, in any order and however often: specification. *)
From Verif Require Import Str Spec ValueTypes Property Chrono DateTime Component Alarm Calendar Nom Parser SpecBuild SpecDoc SpecTree SpecCal SpecRound SpecExact.

(** A value that is written as it is: no CR LF, no line break followed by a blank. *)
Definition plain_value (v : str) : Prop := ~ has_crlf v /\ mark_free v.
(** The identifier of a time zone becomes a parameter. *)
Definition zone_safe (x : dpt) : Prop := match x with DT (WithTimezone _ z) => pvalue_ok z | _ => True end.
Definition trigger_safe (t : trigger) : Prop := match t with TDateTime c => zone_safe (DT c) | _ => True end.

(** What a call may be given.  Texts (of [summary], [description], [location], [uid]), numbers, dates, durations, classes
    and statuses: anything.  Values that are not TEXT and identifiers of time zones: as above.  Properties made by the
    caller: a name that is one, parameters and values as above. *)
Definition call_safe {U : Unicode} (c : call) : Prop :=
  match c with
  | KAppend p | KMulti p => line_fine p
  | KAdd k v | KAddMulti k v => line_fine (prop_new k v)
  | KSub _ | KAlarm _ => False
  | KUrl s | KStreet s | KExtended s | KLocality s | KRegion s | KCountry s | KPostal s => plain_value s
  | KStarts x | KEnds x | KDue x => zone_safe x
  | KVenue _ u => pvalue_ok u
  | _ => True
  end.

(** The components and calendars a program can come to have. *)
Inductive comp_session {U : Unicode} : inner -> Prop :=
| si_new : comp_session inner_new
| si_start : forall a, trigger_safe (start_trigger a) -> comp_session (do_start a)
| si_repeat : forall i d n, comp_session i -> comp_session (duration_and_repeat i d n)
| si_call : forall i c, comp_session i -> call_safe c -> comp_session (do_call i c)
| si_sub : forall i n j, comp_session i -> name_ok n -> comp_session j -> comp_session (append_component i (n, j))
| si_alarm : forall i a, comp_session i -> comp_session a -> comp_session (alarm i a)
| si_inside : forall i n j, comp_session i -> In (n, j) (i_comps i) -> comp_session j
| si_taken : forall c x, cal_session c -> In x (c_comps c) -> comp_session (cc_inner x)
with cal_session {U : Unicode} : calendar -> Prop :=
| sc_new : cal_session cal_new
| sc_empty : cal_session cal_empty
| sc_property : forall c p, cal_session c -> line_fine p -> cal_session (cal_append_property c p)
| sc_name : forall c s, cal_session c -> plain_value s -> cal_session (cal_name c s)
| sc_description : forall c s, cal_session c -> plain_value s -> cal_session (cal_description c s)
| sc_timezone : forall c s, cal_session c -> plain_value s -> cal_session (cal_timezone c s)
| sc_ttl : forall c d, cal_session c -> cal_session (cal_ttl c d)
| sc_push : forall c x, cal_session c -> name_ok (cc_kind x) -> comp_session (cc_inner x) -> cal_session (cal_push c x)
| sc_picked : forall c l, cal_session c -> incl l (c_comps c) -> cal_session (mk_calendar (c_props c) l)
| sc_append : forall c d, cal_session c -> cal_session d -> cal_session (fst (cal_append c d))
| sc_emptied : forall c d, cal_session c -> cal_session d -> cal_session (snd (cal_append c d))
| sc_imported : forall s c, calendar_from_str s = Ok c -> cal_fine c -> cal_session c
| sc_loaded : forall e c s d, cal_session c -> clock_ok e -> cal_write e c = Ret s -> calendar_from_str s = Ok d -> cal_session d.
Scheme comp_session_mut := Induction for comp_session Sort Prop
  with cal_session_mut := Induction for cal_session Sort Prop.
Combined Scheme session_mut from comp_session_mut, cal_session_mut.

(** A run: save, load, edit, and so on; every load succeeds. *)
Fixpoint lives {U : Unicode} (l : list (env * (calendar -> calendar))) (c : calendar) : Prop :=
  match l with
  | [] => True
  | (e, f) :: r => forall s, cal_write e c = Ret s -> exists d, calendar_from_str s = Ok d /\ lives r (f d)
  end.
