(** The grammar of RFC 5545, independent of the code: content lines (section 3.1), TEXT values (section 3.3.11) and
    calendar components (sections 3.4 and 3.6), with what they say.  Characters are given by their numbers. *)
From Verif Require Import Str Spec ValueTypes Property Chrono DateTime Component Calendar
  SpecBuild SpecDate SpecTree SpecDoc SpecRound SpecText.
Local Open Scope N_scope.

(** CONTROL: all the controls except HTAB. *)
Definition control (c : char) : Prop := c <= 8 \/ 10 <= c <= 31 \/ c = 127.
(** iana-token, x-name: letters, digits and dashes. *)
Definition token_char (c : char) : Prop := 65 <= c <= 90 \/ 97 <= c <= 122 \/ 48 <= c <= 57 \/ c = 45.
Definition token (s : str) : Prop := s <> [] /\ Forall token_char s.
(** VALUE-CHAR, QSAFE-CHAR, SAFE-CHAR. *)
Definition value_char (c : char) : Prop := ~ control c.
Definition quoted_char (c : char) : Prop := ~ control c /\ c <> 34.
Definition safe_char (c : char) : Prop := quoted_char c /\ c <> 44 /\ c <> 58 /\ c <> 59.

(** param-value: paramtext or quoted-string. *)
Inductive rfc_pvalue : str -> str -> Prop :=
| rv_plain : forall v, Forall safe_char v -> rfc_pvalue v v
| rv_quoted : forall v, Forall quoted_char v -> rfc_pvalue v (34 :: v ++ [34]).
(** Values separated by commas. *)
Inductive rfc_pvalues : list str -> str -> Prop :=
| rl_one : forall v t, rfc_pvalue v t -> rfc_pvalues [v] t
| rl_more : forall v t vs ts, rfc_pvalue v t -> rfc_pvalues vs ts -> rfc_pvalues (v :: vs) (t ++ 44 :: ts).
(** Parameters, a semicolon before each. *)
Inductive rfc_params : list (str * list str) -> str -> Prop :=
| rp_nil : rfc_params [] []
| rp_more : forall k vs t ps ts, token k -> rfc_pvalues vs t -> rfc_params ps ts ->
    rfc_params ((k, vs) :: ps) (59 :: k ++ 61 :: t ++ ts).
(** contentline: a name, parameters, a colon, a value. *)
Record rline := RLine { rl_name : str; rl_params : list (str * list str); rl_value : str }.
Definition rfc_line (r : rline) (l : str) : Prop :=
  token (rl_name r) /\ Forall value_char (rl_value r)
  /\ exists ts, rfc_params (rl_params r) ts /\ l = rl_name r ++ ts ++ 58 :: rl_value r.

(** text: [\\], [\;], [\,], [\N] and [\n] stand for a backslash, a semicolon, a comma and a line feed. *)
Inductive rfc_text : str -> str -> Prop :=
| rt_nil : rfc_text [] []
| rt_char : forall c t w, ~ control c -> ~ In c [92; 59; 44] -> rfc_text t w -> rfc_text (c :: t) (c :: w)
| rt_escaped : forall c t w, In c [92; 59; 44] -> rfc_text t w -> rfc_text (c :: t) (92 :: c :: w)
| rt_newline : forall n t w, In n [78; 110] -> rfc_text t w -> rfc_text (10 :: t) (92 :: n :: w).

(** Folding: a line break and one blank anywhere in the line mean nothing; the line ends with a line break. *)
Inductive rfc_fold : str -> str -> Prop :=
| rf_end : rfc_fold [] [13; 10]
| rf_char : forall c l t, rfc_fold l t -> rfc_fold (c :: l) (c :: t)
| rf_fold : forall b l t, In b [9; 32] -> rfc_fold l t -> rfc_fold l (13 :: 10 :: b :: t).

(** BEGIN and END are not names of properties (names are case-insensitive). *)
Definition ascii_upper (c : char) : char := if (97 <=? c) && (c <=? 122) then c - 32 else c.
Definition property_name (k : str) : Prop :=
  token k /\ map ascii_upper k <> [66; 69; 71; 73; 78] /\ map ascii_upper k <> [69; 78; 68].
(** A component: a BEGIN line, properties, components, an END line with the same name. *)
Inductive rtree := RNode (name : str) (lines : list rline) (subs : list rtree).
Inductive rfc_component : rtree -> list str -> Prop :=
| Rfc_component : forall k rs ls cs lss,
    token k ->
    Forall2 (fun r l => property_name (rl_name r) /\ rfc_line r l) rs ls ->
    Forall2 rfc_component cs lss ->
    rfc_component (RNode k rs cs)
      ((lit "BEGIN:" ++ k) :: ls ++ concat lss ++ [lit "END:" ++ k]).
(** The octets: the folded lines of the component one after the other. *)
Definition rfc_document (t : rtree) (s : str) : Prop :=
  exists ls ts, rfc_component t ls /\ Forall2 rfc_fold ls ts /\ s = concat ts.

(** What the written properties, components and calendars should say to a reader of this grammar. *)

(** A parameter value with a colon or semicolon is one quoted value; any other is a list of values separated by commas. *)
Definition pvalue_says (v : str) (vs : list str) : Prop :=
  (In 58 v \/ In 59 v -> vs = [v])
  /\ (~ In 58 v -> ~ In 59 v ->
      Forall (fun x => ~ In 44 x) vs /\ exists x r, vs = x :: r /\ v = x ++ concat (map (fun y => 44 :: y) r)).
Definition property_says {U : Unicode} (p : property) (r : rline) : Prop :=
  rl_name r = p_key p
  /\ Forall2 (fun q s => fst s = fst q /\ pvalue_says (snd q) (snd s)) (p_params p) (rl_params r)
  /\ (is_text p -> text_written (p_val p) (rl_value r)) /\ (~ is_text p -> rl_value r = p_val p).
Inductive tree_says {U : Unicode} : tree -> rtree -> Prop :=
| Tree_says : forall k ps rs cs ds, Forall2 property_says ps rs -> Forall2 tree_says cs ds ->
    tree_says (Node k ps cs) (RNode k rs ds).

(** The properties whose lines are in the grammar. *)
Definition within {U : Unicode} (p : property) : Prop :=
  token (p_key p)
  /\ Forall (fun q => token (fst q) /\ Forall quoted_char (snd q)) (p_params p)
  /\ (is_text p -> Forall (fun c => ~ control c \/ c = 10) (p_val p))
  /\ (~ is_text p -> Forall value_char (p_val p)).
Definition property_within {U : Unicode} (p : property) : Prop := within p /\ property_name (p_key p).
Inductive tree_within {U : Unicode} : tree -> Prop :=
| Tree_within : forall k ps cs, token k -> Forall property_within ps -> Forall tree_within cs ->
    tree_within (Node k ps cs).
(** Components and calendars all of whose properties are. *)
Inductive inner_within {U : Unicode} : str -> inner -> Prop :=
| Inner_within : forall k i, token k ->
    (forall key p, map_get key (i_props i) = Some p -> property_within p) ->
    (forall key g, map_get key (i_multi i) = Some g -> Forall property_within g) ->
    Forall (fun o => inner_within (fst o) (snd o)) (i_comps i) -> inner_within k i.
Definition cal_within {U : Unicode} (c : calendar) : Prop :=
  Forall property_within (c_props c) /\ Forall (fun x => inner_within (cc_kind x) (cc_inner x)) (c_comps c).
