(** Documents of the grammar of RFC 5545 ([SpecRfc]) as they are read: what they should be read as, and which are. *)
From Verif Require Import Str Spec ValueTypes Property Component Calendar Nom Parser SpecBuild SpecTree SpecDoc SpecRound SpecText SpecMore SpecRfc.

(** ** What a document says *)

(** Several values of a parameter are one value with commas. *)
Definition joined (vs : list str) : str :=
  match vs with [] => [] | v :: r => v ++ concat (map (fun x => COMMA :: x) r) end.
Definition param_said (q : str * list str) (p : pparam) : Prop :=
  pp_key p = fst q /\ (pp_val p = Some (joined (snd q)) \/ joined (snd q) = [] /\ pp_val p = None).
(** The values of the first parameter of a name. *)
Definition first_named (same : str -> Prop) (qs : list (str * list str)) (vs : list str) : Prop :=
  exists a k b, qs = a ++ (k, vs) :: b /\ same k /\ Forall (fun q => ~ same (fst q)) a.
(** Names and registered values are compared without regard to case (RFC 5545, section 2). *)
Definition any_case (a b : str) : Prop := map ascii_upper a = map ascii_upper b.
(** A TEXT value: by the VALUE parameter, or, without one, by the name. *)
Definition says_text (r : rline) : Prop :=
  (exists v, first_named (any_case (lit "VALUE")) (rl_params r) [v] /\ any_case (lit "TEXT") v)
  \/ Forall (fun q => ~ any_case (lit "VALUE") (fst q)) (rl_params r)
     /\ exists n, In (n, Text) rfc_default_types /\ any_case (lit n) (rl_name r).
(** The value: TEXT values in which every backslash starts an escape are decoded, other values are as written. *)
Definition value_said (r : rline) (v : str) : Prop :=
  (says_text r -> forall ps, Forall rfc_piece ps -> rl_value r = wire ps -> v = decoded ps)
  /\ (~ says_text r -> v = rl_value r).
Definition line_said (r : rline) (p : pprop) : Prop :=
  Parser.pr_name p = rl_name r /\ Forall2 param_said (rl_params r) (pr_params p) /\ value_said r (pr_val p).
Inductive component_said : rtree -> pcomp -> Prop :=
| Component_said : forall k rs cs ps ds, Forall2 line_said rs ps -> Forall2 component_said cs ds ->
    component_said (RNode k rs cs) (mk_pcomp k ps ds).

(** ** Documents that are read as that *)

(** Names are compared exactly, and unknown types are passed over. *)
Definition taken_text (r : rline) : Prop :=
  first_named (eq (lit "VALUE")) (rl_params r) [lit "TEXT"]
  \/ (forall n t, In (n, t) registered -> ~ first_named (eq (lit "VALUE")) (rl_params r) [lit n])
     /\ exists n, In (n, Text) rfc_default_types /\ rl_name r = lit n.
(** No escaped backslash before a character that would be an escape with it; no escape in a TEXT value that is not taken as
    one; none in another value that is taken as TEXT. *)
Definition value_kept (r : rline) : Prop :=
  (says_text r -> taken_text r -> forall a d b, Forall rfc_piece (a ++ Escaped BSL :: Plain d :: b) ->
     rl_value r = wire (a ++ Escaped BSL :: Plain d :: b) -> ~ In d [COMMA; SEMI; COLON; 78%N; 110%N])
  /\ (says_text r -> ~ taken_text r -> forall ps, Forall rfc_piece ps -> rl_value r = wire ps -> ~ In BSL (rl_value r))
  /\ (~ says_text r -> taken_text r -> ~ escapes (rl_value r)).
(** No quotes, or one value in quotes that is not empty. *)
Inductive kept_params : list (str * list str) -> str -> Prop :=
| kp_nil : kept_params [] []
| kp_more : forall k vs t ps ts, rfc_pvalues vs t -> ~ In DQ t \/ (exists v, v <> [] /\ vs = [v]) -> kept_params ps ts ->
    kept_params ((k, vs) :: ps) (SEMI :: k ++ EQUALS :: t ++ ts).
(** The name does not start with END or BEGIN. *)
Definition line_kept (r : rline) (l : str) : Prop :=
  ~ has_prefix (lit "END") (rl_name r) /\ ~ has_prefix (lit "BEGIN") (rl_name r)
  /\ (exists ts, kept_params (rl_params r) ts /\ l = rl_name r ++ ts ++ COLON :: rl_value r)
  /\ value_kept r.
Inductive component_kept : rtree -> list str -> Prop :=
| Component_kept : forall k rs ls cs lss, token k ->
    Forall2 (fun r l => (property_name (rl_name r) /\ rfc_line r l) /\ line_kept r l) rs ls -> Forall2 component_kept cs lss ->
    component_kept (RNode k rs cs) ((lit "BEGIN:" ++ k) :: ls ++ concat lss ++ [lit "END:" ++ k]).
Definition document_kept (t : rtree) (s : str) : Prop :=
  exists ls ts, component_kept t ls /\ Forall2 rfc_fold ls ts /\ s = concat ts.
