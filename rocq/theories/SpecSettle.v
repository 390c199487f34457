(** Which serialized calendars are written again as they were: specification. *)
From Verif Require Import Str Spec ValueTypes Property Chrono DateTime Component Calendar Nom Parser
  SpecBuild SpecDate SpecTree SpecDoc SpecConv SpecRound.

(** In ascending order, possibly with repetitions. *)
Fixpoint climbing (ks : list str) : Prop :=
  match ks with [] => True | k :: r => Forall (fun j => k = j \/ str_lt k j) r /\ climbing r end.
(** First the names that are not known as multi-valued, each once and in ascending order; then those that are, in ascending order. *)
Definition sorted_names (ks : list str) : Prop :=
  exists a b, ks = a ++ b /\ Forall (fun k => ~ multi_name k) a /\ ascending a /\ Forall multi_name b /\ climbing b.
(** No TEXT value is confused, and in every component the names are sorted. *)
Definition unconfused {U : Unicode} (p : property) : Prop := is_text p -> ~ confused (p_val p).
Inductive settled {U : Unicode} : tree -> Prop :=
| Settled : forall n ps cs, sorted_names (map p_key ps) -> Forall unconfused ps -> Forall settled cs -> settled (Node n ps cs).
