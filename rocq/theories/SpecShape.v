(** What is read from any text at all: specification. *)
From Verif Require Import Str Spec ValueTypes Property Chrono DateTime Component Calendar Nom Parser
  SpecBuild SpecDate SpecTree SpecDoc SpecConv SpecRound.

(** Names of name characters that do not start with END or BEGIN; parameters with such characters in their names, each name once,
    and values that have not both a double quote and one of [;] and [:]. *)
Definition prop_shape {U : Unicode} (p : property) : Prop :=
  (name_ok (p_key p) /\ ~ has_prefix (lit "END") (p_key p) /\ ~ has_prefix (lit "BEGIN") (p_key p))
  /\ Forall (fun q => name_ok (fst q) /\ (~ In DQ (snd q) \/ ~ In SEMI (snd q) /\ ~ In COLON (snd q))) (p_params p)
  /\ NoDup (map fst (p_params p)).
(** Multi-valued properties under the multi-valued names and only there. *)
Inductive inner_shape {U : Unicode} : inner -> Prop :=
| Inner_shape : forall i,
    (forall k p, map_get k (i_props i) = Some p -> ~ multi_name k /\ p_key p = k /\ prop_shape p) ->
    (forall k ps, map_get k (i_multi i) = Some ps -> multi_name k /\ ps <> [] /\ Forall (fun p => p_key p = k /\ prop_shape p) ps) ->
    Forall (fun o => name_ok (fst o) /\ inner_shape (snd o)) (i_comps i) ->
    inner_shape i.
(** Events, todos and venues as such. *)
Definition comp_shape {U : Unicode} (c : cal_component) : Prop := kind_ok c /\ inner_shape (cc_inner c).
Definition cal_shape {U : Unicode} (c : calendar) : Prop := Forall prop_shape (c_props c) /\ Forall comp_shape (c_comps c).

(** A property that is read back as it is: the name is not END or BEGIN in any case; no parameter value starts with a double quote or has
    a line break before a blank; the value is TEXT without a backslash before [:], [N] or [n], or another value without CR LF and without a
    line break before a blank. *)
Definition prop_quiet {U : Unicode} (p : property) : Prop :=
  map lower_ascii (p_key p) <> lit "end" /\ map lower_ascii (p_key p) <> lit "begin"
  /\ Forall (fun q => ~ has_prefix [DQ] (snd q) /\ mark_free (snd q)) (p_params p) /\ val_ok p.

(** [v] stands somewhere in [u]. *)
Definition part_of (v u : str) : Prop := exists a b, u = a ++ v ++ b.
