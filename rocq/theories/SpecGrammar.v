(** The language of the parser: which texts are read as components, and as which. *)
From Verif Require Import Str Spec ValueTypes Property Component Calendar Nom Parser SpecDoc SpecItems.

(** One line break, or none, is taken; all line breaks are taken. *)
Definition after_break (a r : str) : Prop := (exists b, break b /\ a = b ++ r) \/ no_break_next a /\ r = a.
Definition after_breaks (a r : str) : Prop := exists b, breaks b /\ a = b ++ r /\ no_break_next r.
(** A keyword, in any case. *)
Definition keyword (w : str) (i : str) : Prop := exists k r, map lower_ascii k = w /\ i = k ++ r.
Notation begins := (keyword (lit "begin:")).
Notation ends := (keyword (lit "end:")).

(** [line_left i p rest]: [i] starts with a property line read as [p]; [rest] follows its value (cf. [line_read]). *)
Definition line_left {U : Unicode} (i : str) (p : pprop) (rest : str) : Prop :=
  exists w k qs t v, i = w ++ k ++ t ++ COLON :: v ++ rest /\ white w /\ name_ok k
    /\ params_read qs t (COLON :: v ++ rest) /\ value_cut v rest
    /\ p = mk_pprop k (decode_value k qs v) qs.
(** A property: a line, or, if there is none, the longest name; and a line break if there is one. *)
Definition prop_reads {U : Unicode} (i : str) (p : pprop) (r : str) : Prop :=
  ~ reserved i /\ exists rest, after_break rest r /\
    (line_left i p rest
     \/ (forall q x, ~ line_left i q x) /\ exists k, i = k ++ rest /\ name_ok k /\ name_ends rest /\ p = mk_pprop k [] []).
(** The same with the line breaks that follow. *)
Definition item_reads {U : Unicode} (i : str) (p : pprop) (r : str) : Prop := exists j, prop_reads i p j /\ after_breaks j r.

(** [comp_reads i c r]: [i] starts with the text of [c], and [r] is what follows.
    [body_reads n i ps cs r]: the same for the inside of a component with the name [n], up to its end.
    [comp_stuck i], [body_stuck i]: a component starts in [i], but its inside goes on to a place where nothing can be read;
    such a component is read as a property line (with the name [begin]). *)
Inductive comp_reads {U : Unicode} : str -> pcomp -> str -> Prop :=
| cr_comp : forall kb n i j ps cs r, map lower_ascii kb = lit "begin:" -> name_ok n -> name_ends i -> after_breaks i j ->
    body_reads n j ps cs r -> comp_reads (kb ++ n ++ i) (mk_pcomp n ps cs) r
with body_reads {U : Unicode} : str -> str -> list pprop -> list pcomp -> str -> Prop :=
| br_end : forall n ke i r, map lower_ascii ke = lit "end:" -> after_breaks i r -> body_reads n (ke ++ n ++ i) [] [] r
| br_comp : forall n i c j ps cs r, comp_reads i c j -> body_reads n j ps cs r -> body_reads n i ps (c :: cs) r
| br_prop : forall n i p j ps cs r, ~ ends i -> ~ begins i -> item_reads i p j -> j <> i ->
    body_reads n j ps cs r -> body_reads n i (p :: ps) cs r
| br_begin : forall n i p j ps cs r, comp_stuck i -> item_reads i p j -> body_reads n j ps cs r -> body_reads n i (p :: ps) cs r
with comp_stuck {U : Unicode} : str -> Prop :=
| cs_comp : forall kb n i j, map lower_ascii kb = lit "begin:" -> name_ok n -> name_ends i -> after_breaks i j ->
    body_stuck j -> comp_stuck (kb ++ n ++ i)
with body_stuck {U : Unicode} : str -> Prop :=
| bs_here : forall i p, ~ ends i -> ~ begins i -> item_reads i p i -> body_stuck i
| bs_comp : forall i c j, comp_reads i c j -> body_stuck j -> body_stuck i
| bs_prop : forall i p j, ~ ends i -> ~ begins i -> item_reads i p j -> j <> i -> body_stuck j -> body_stuck i
| bs_begin : forall i p j, comp_stuck i -> item_reads i p j -> body_stuck j -> body_stuck i.

(** [comp_fails i], [body_fails n i]: the component is given up as an error: the name after END does not start with the name
    of the component, or there is END or BEGIN where a property is expected. *)
Inductive comp_fails {U : Unicode} : str -> Prop :=
| cf_comp : forall kb n i j, map lower_ascii kb = lit "begin:" -> name_ok n -> name_ends i -> after_breaks i j ->
    body_fails n j -> comp_fails (kb ++ n ++ i)
with body_fails {U : Unicode} : str -> str -> Prop :=
| bf_end : forall n ke i, map lower_ascii ke = lit "end:" -> ~ has_prefix n i -> body_fails n (ke ++ i)
| bf_comp : forall n i, comp_fails i -> body_fails n i
| bf_prop : forall n i, ~ ends i -> ~ begins i \/ comp_stuck i -> reserved i -> body_fails n i
| bf_next_comp : forall n i c j, comp_reads i c j -> body_fails n j -> body_fails n i
| bf_next_prop : forall n i p j, ~ ends i -> ~ begins i \/ comp_stuck i -> item_reads i p j -> j <> i -> body_fails n j -> body_fails n i.

(** A whole text: line breaks, then a component. *)
Definition text_reads {U : Unicode} (i : str) (c : pcomp) (r : str) : Prop := exists j, after_breaks i j /\ comp_reads j c r.
(** Texts in which no component is found: something else comes first, or the component gets stuck, or something follows it. *)
Definition text_other {U : Unicode} (i : str) : Prop :=
  exists j, after_breaks i j /\ (~ begins j \/ comp_stuck j \/ exists c r, r <> [] /\ comp_reads j c r).
(** Texts that are rejected. *)
Definition text_fails {U : Unicode} (i : str) : Prop := exists j, after_breaks i j /\ comp_fails j.
