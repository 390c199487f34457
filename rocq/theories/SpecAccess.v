(** Specifications for C60-C66. *)
From Verif Require Import Str Spec ValueTypes Property Chrono DateTime Component Alarm Calendar Access
  SpecBuild SpecDate SpecCal.
From Coq Require Export Permutation.

(** ** Time zones *)

(** A sensible time zone database: zones are found under their names; a zone shows a real time;
    a local time is converted to the only instant at which the zone shows it, if there is only one. *)
Record tz_ok (T : TzDb) : Prop := {
  names_ok : forall z, tz_parse (tz_name z) = Some z;
  local_ok : forall z u, real_dt u -> real_dt (tz_local z u);
  single_ok : forall z d u, tz_single z d = Some u
    <-> real_dt u /\ tz_local z u = d /\ forall v, real_dt v -> tz_local z v = d -> v = u }.
(** The zone shows the same local time at another instant as well (clocks put back). *)
Definition ambiguous {T : TzDb} (z : tz) (u : ndt) : Prop := exists v, real_dt v /\ v <> u /\ tz_local z v = tz_local z u.

(** ** Triggers *)

(** When an alarm goes off: [d] nanoseconds after the start or the end, or at a given time. *)
Inductive going_off := Off_after (d : Z) (r : related) | Off_duration (d : Z) | Off_at (c : cal_dt).
(** What a TRIGGER property says (RFC 5545, section 3.8.6.3). *)
Inductive trigger_says : property -> going_off -> Prop :=
| Says_start : forall v d, denotes v d ->
    trigger_says (mk_property (lit "TRIGGER") v [(lit "RELATED", lit "START")]) (Off_after d RStart)
| Says_end : forall v d, denotes v d ->
    trigger_says (mk_property (lit "TRIGGER") v [(lit "RELATED", lit "END")]) (Off_after d REnd)
| Says_duration : forall v d, denotes v d -> trigger_says (mk_property (lit "TRIGGER") v []) (Off_duration d)
| Says_at : forall p c, p_key p = lit "TRIGGER" -> p_val p = dpt_text (DT c) ->
    map_get (lit "VALUE") (p_params p) = Some (lit "DATE-TIME") ->
    (forall k, k <> lit "VALUE" -> map_get k (p_params p) = map_get k (dpt_params (DT c))) ->
    trigger_says p (Off_at c).

(** ** Independent calls *)

Definition key_of (c : call) : list str := map p_key (sets c).
(** Two calls that do not set the same property, do not append under the same name and do not both append a component. *)
Definition independent (a b : call) : Prop :=
  (forall p q, In p (sets a) -> In q (sets b) -> p_key p <> p_key q)
  /\ (forall p q, In p (multis a) -> In q (multis b) -> p_key p <> p_key q)
  /\ (subs a = [] \/ subs b = []).
(** All that a call sets is set again later on, and it appends nothing. *)
Definition superseded (a : call) (later : list call) : Prop :=
  multis a = [] /\ subs a = [] /\ forall p, In p (sets a) -> exists q, In q (flat_map sets later) /\ p_key q = p_key p.

(** ** Parameters *)

(** The same property, with the parameters in another order. *)
Definition reordered (p q : property) : Prop :=
  p_key p = p_key q /\ p_val p = p_val q /\ Permutation (p_params p) (p_params q).
