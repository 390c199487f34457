(** The errors of the parser: which entries, with which locations, are reported for a text that is not read. *)
From Verif Require Import Str Spec ValueTypes Property Component Calendar Nom Parser SpecDoc SpecItems SpecGrammar SpecError.

(** [comp_stuck_at i x]: the component at the start of [i] goes on to [x], where nothing can be read (cf. [comp_stuck]). *)
Inductive comp_stuck_at {U : Unicode} : str -> str -> Prop :=
| csa_comp : forall kb n i j x, map lower_ascii kb = lit "begin:" -> name_ok n -> name_ends i -> after_breaks i j ->
    body_stuck_at j x -> comp_stuck_at (kb ++ n ++ i) x
with body_stuck_at {U : Unicode} : str -> str -> Prop :=
| bsa_here : forall i p, ~ ends i -> ~ begins i -> item_reads i p i -> body_stuck_at i i
| bsa_comp : forall i c j x, comp_reads i c j -> body_stuck_at j x -> body_stuck_at i x
| bsa_prop : forall i p j x, ~ ends i -> ~ begins i -> item_reads i p j -> j <> i -> body_stuck_at j x -> body_stuck_at i x
| bsa_begin : forall i p j x, comp_stuck i -> item_reads i p j -> body_stuck_at j x -> body_stuck_at i x.

(** A property cannot start here: white space, then END or BEGIN at [r]. *)
Definition reserved_at (i r : str) : Prop :=
  exists w x, white w /\ i = w ++ r /\ (r = lit "END" ++ x \/ r = lit "BEGIN" ++ x).
Definition property_stack (i r : str) : verror :=
  [(r, VNom KSatisfy); (i, VContext "property cannot be END or BEGIN"); (i, VContext "property")].

(** [comp_fails_with i e]: the component is given up with the entries [e], innermost first (cf. [comp_fails]): what went wrong,
    and where; then, for every component around, the place at which the next of its items was expected. *)
Inductive comp_fails_with {U : Unicode} : str -> verror -> Prop :=
| cfw_comp : forall kb n i j e, map lower_ascii kb = lit "begin:" -> name_ok n -> name_ends i -> after_breaks i j ->
    body_fails_with n j e -> comp_fails_with (kb ++ n ++ i) e
with body_fails_with {U : Unicode} : str -> str -> verror -> Prop :=
| bfw_end : forall n ke i, map lower_ascii ke = lit "end:" -> ~ has_prefix n i ->
    body_fails_with n (ke ++ i) [(i, VNom KTag); (i, VContext "mismatching end")]
| bfw_comp : forall n i e, comp_fails_with i e -> body_fails_with n i (e ++ [(i, VContext "component")])
| bfw_prop : forall n i r, ~ ends i -> ~ begins i \/ comp_stuck i -> reserved_at i r ->
    body_fails_with n i (property_stack i r ++ [(i, VContext "component")])
| bfw_next_comp : forall n i c j e, comp_reads i c j -> body_fails_with n j e -> body_fails_with n i e
| bfw_next_prop : forall n i p j e, ~ ends i -> ~ begins i \/ comp_stuck i -> item_reads i p j -> j <> i ->
    body_fails_with n j e -> body_fails_with n i e.

Definition text_fails_with {U : Unicode} (i : str) (e : verror) : Prop := exists j, after_breaks i j /\ comp_fails_with j e.
(** A single component: also, no component starts here, or it gets stuck. *)
Definition text_none_with {U : Unicode} (i : str) (e : verror) : Prop :=
  exists j, after_breaks i j /\ (~ begins j /\ e = [(j, VNom KTag)] \/ exists x, comp_stuck_at j x /\ e = [(x, VNom KManyTill)]).
