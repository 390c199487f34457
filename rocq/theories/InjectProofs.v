(** Different data have different texts: proofs. *)
From Verif Require Import Str StrFacts Spec Fold UnfoldProofs FoldProofs Text TextProofs ValueTypes Property Chrono DateTime
  Component Alarm Calendar Nom Parser SpecBuild SpecDate SpecTree SpecDoc SpecConv SpecRound SpecText SpecExact SpecInject BuildProofs DateProofs ValueProofs
  TreeProofs ParserProofs DocProofs ConvProofs RoundProofs WrittenProofs ExactProofs.
From Coq Require Import ZifyBool ZifyNat ZifyN.

(** ** Texts *)

Lemma split_at : forall (P : char -> Prop) a b c d x y, Forall P a -> Forall P b -> ~ P c -> ~ P d -> a ++ c :: x = b ++ d :: y ->
  a = b /\ c = d /\ x = y.
Proof.
  intros P a. induction a as [|a0 a IH]; intros b c d x y A B C D E.
  - destruct b as [|b0 b]; cbn [app] in E; injection E as -> E; [easy|]. now inversion B.
  - inversion A; subst. destruct b as [|b0 b]; cbn [app] in E; injection E as -> E; [easy|]. inversion B; subst.
    destruct (IH b c d x y) as (-> & -> & ->); easy.
Qed.
Lemma crlf_split : forall v w x y, ~ has_crlf v -> ~ has_crlf w -> v ++ [CR; LF] ++ x = w ++ [CR; LF] ++ y -> v = w /\ x = y.
Proof.
  assert (C : forall v x w y, ~ has_crlf w -> v ++ [CR; LF] ++ x = w ++ [CR; LF] ++ y -> length v <= length w -> v = w /\ x = y).
  { induction v as [|c v IH]; intros x w y N E L.
    - destruct w as [|c w]; [now inversion E|]. cbn [app] in E. injection E as <- E. destruct w as [|d w].
      + cbn [app] in E. injection E. discriminate.
      + cbn [app] in E. injection E as <- E. exfalso. apply N. now exists [], w.
    - destruct w as [|d w]; [cbn in L; lia|]. cbn [app] in E. injection E as -> E.
      destruct (IH x w y) as [-> ->]; [|exact E|cbn in L; lia|easy].
      intros (a & b & Q). apply N. exists (d :: a), b. now rewrite Q. }
  intros v w x y V W E. destruct (le_lt_dec (length v) (length w)) as [L|L].
  - now apply (C v x w y).
  - destruct (C w y v x V (eq_sym E)) as [-> ->]; [lia|easy].
Qed.
Lemma char_one : forall c d s r t u, char_written c s -> char_written d t -> s ++ r = t ++ u -> c = d /\ r = u.
Proof.
  intros c d s r t u H K E.
  inversion H as [? N|? I|]; inversion K as [? N'|? I'|]; subst; cbn [app] in E; inversion E; subst; try easy; cbn [In] in *; exfalso;
    try (apply N; tauto); try (apply N'; tauto);
    repeat match goal with H : _ \/ _ |- _ => destruct H | H : False |- _ => destruct H end; discriminate.
Qed.
Lemma text_one_way : forall v w t, text_written v t -> text_written w t -> v = w.
Proof.
  intros v w t (ss & F & E) (ss' & F' & E'). rewrite E in E'. clear E t. revert w ss' F' E'. induction F as [|c s v ss H _ IH]; intros w ss' F' E'.
  - destruct F' as [|d s' w ss' H' F']; [easy|]. cbn [concat] in E'. inversion H'; subst; discriminate.
  - destruct F' as [|d s' w ss' H' F']; cbn [concat] in E'; [inversion H; subst; discriminate|].
    destruct (char_one _ _ _ _ _ _ H H' E') as [-> Q]. f_equal. now apply (IH w ss').
Qed.

Section Inject.
  Context {U : Unicode}.
  (** ** Lines *)
  Definition no_sep (c : char) : Prop := ~ In c [SEMI; COLON; EQUALS; CR; LF; SP; TAB].
  Lemma name_seps : forall k, name_ok k -> Forall no_sep k.
  Proof.
    intros k K. apply Forall_forall. intros c I J. revert I. apply name_no_special; [easy|]. cbn in J |- *. intuition subst; auto 20.
  Qed.
  Definition sep_head (r : str) : Prop := exists c q, r = c :: q /\ (c = SEMI \/ c = COLON).
  Lemma value_one : forall v w r r', pvalue_ok v -> pvalue_ok w -> sep_head r -> sep_head r' ->
    quote_if_contains_colon v ++ r = quote_if_contains_colon w ++ r' -> v = w /\ r = r'.
  Proof.
    intros v w r r' [_ V] [_ W] (c & q & -> & C) (d & q' & -> & D) E. unfold quote_if_contains_colon in E.
    assert (Q : forall v, existsb (fun c => (c =? COLON)%N || (c =? SEMI)%N) v = true -> In COLON v \/ In SEMI v).
    { intros x H. apply existsb_exists in H as (z & I & H). assert (z = COLON \/ z = SEMI) as [->| ->] by lia; auto. }
    assert (P : forall v, existsb (fun c => (c =? COLON)%N || (c =? SEMI)%N) v = false -> Forall (fun c => c <> COLON /\ c <> SEMI) v).
    { intros x H. apply Forall_forall. intros z I. split; intros ->;
        (enough (existsb (fun c => (c =? COLON)%N || (c =? SEMI)%N) x = true) by congruence); apply existsb_exists;
        [exists COLON|exists SEMI]; (split; [easy|]); now rewrite N.eqb_refl, ?orb_true_r. }
    assert (DQN : forall v, ~ In DQ v \/ ~ In SEMI v /\ ~ In COLON v /\ ~ has_prefix [DQ] v -> In COLON v \/ In SEMI v -> Forall (fun c => c <> DQ) v).
    { intros x [H|(H1 & H2 & _)] I; [|tauto]. apply Forall_forall. intros z J ->. easy. }
    assert (NP : forall v, ~ In DQ v \/ ~ In SEMI v /\ ~ In COLON v /\ ~ has_prefix [DQ] v -> ~ has_prefix [DQ] v).
    { intros x [H|H] ; [|tauto]. intros [z ->]. apply H. now left. }
    destruct (existsb _ v) eqn:X, (existsb _ w) eqn:Y.
    - cbn [app] in E. injection E as E. rewrite <- !app_assoc in E. cbn [app] in E.
      assert (ND : ~ DQ <> DQ) by auto. destruct (split_at (fun c => c <> DQ) v w DQ DQ _ _ (DQN _ V (Q _ X)) (DQN _ W (Q _ Y)) ND ND E) as (-> & _ & E'). auto.
    - exfalso. apply (NP _ W). destruct w as [|z w]; cbn [app] in E; injection E as E1 E2; [subst; destruct D as [D|D]; discriminate D|]. now exists w; subst.
    - exfalso. apply (NP _ V). destruct v as [|z v]; cbn [app] in E; injection E as E1 E2; [subst; destruct C as [C|C]; discriminate C|]. now exists v; subst.
    - destruct (split_at (fun c => c <> COLON /\ c <> SEMI) v w c d q q' (P _ X) (P _ Y) ltac:(tauto) ltac:(tauto) E) as (-> & -> & ->). easy.
  Qed.
  Lemma params_one : forall ps qs v w, Forall param_ok ps -> Forall param_ok qs ->
    params_text ps ++ COLON :: v = params_text qs ++ COLON :: w -> ps = qs /\ v = w.
  Proof.
    assert (SH : forall ps v, sep_head (params_text ps ++ COLON :: v)).
    { intros [|[k x] ps] v; eexists _, _; (split; [unfold params_text; cbn [map concat app]; reflexivity|]); auto. }
    induction ps as [|[k x] ps IH]; intros [|[k' x'] qs] v w P Q E.
    - cbn in E. now injection E.
    - unfold params_text in E. cbn in E. discriminate.
    - unfold params_text in E. cbn in E. discriminate.
    - inversion P as [|? ? [P1 P2] P3]; inversion Q as [|? ? [Q1 Q2] Q3]; subst. cbn [fst snd] in *.
      unfold params_text in E. cbn [map concat fst snd app] in E. injection E as E. rewrite <- !app_assoc in E. cbn [app] in E.
      assert (NE : ~ no_sep EQUALS) by (intros N; apply N; cbn; auto). destruct (split_at no_sep k k' EQUALS EQUALS _ _ (name_seps _ P1) (name_seps _ Q1) NE NE E) as (-> & _ & E').
      destruct (value_one x x' _ _ P2 Q2 (SH ps v) (SH qs w) E') as [-> E2].
      destruct (IH qs v w P3 Q3 E2) as [-> ->]. easy.
  Qed.
  Lemma line_one : forall p q r r', line_good p -> line_good q -> prop_line p ++ [CR; LF] ++ r = prop_line q ++ [CR; LF] ++ r' -> p = q /\ r = r'.
  Proof.
    intros p q r r' ((P1 & P2 & _) & _ & P3) ((Q1 & Q2 & _) & _ & Q3) E. destruct P1 as [P1 _], Q1 as [Q1 _]. unfold prop_line in E.
    assert (K : forall ps v, exists c x, params_text ps ++ COLON :: v = c :: x /\ ~ no_sep c).
    { intros [|[k x] ps] v; eexists _, _; (split; [unfold params_text; cbn [map concat app]; reflexivity|]); intros N; apply N; cbn; auto. }
    rewrite <- !app_assoc in E. cbn [app] in E.
    destruct (K (p_params p) (value_text p ++ CR :: LF :: r)) as (c & x & X1 & X2). destruct (K (p_params q) (value_text q ++ CR :: LF :: r')) as (d & y & Y1 & Y2).
    rewrite X1, Y1 in E. destruct (split_at no_sep _ _ c d x y (name_seps _ P1) (name_seps _ Q1) X2 Y2 E) as (EK & -> & ->).
    rewrite <- Y1 in X1. destruct (params_one _ _ _ _ P2 Q2 X1) as [EP EV].
    destruct (crlf_split (value_text p) (value_text q) r r' P3 Q3 EV) as [ET ->]. split; [|easy].
    assert (T : prop_value_type p = prop_value_type q) by (unfold prop_value_type; now rewrite EK, EP).
    destruct (value_text_of p) as [T1 T2], (value_text_of q) as [T3 T4].
    assert (p_val p = p_val q).
    { destruct (is_text_dec p) as [I|I].
      - assert (I' : is_text q) by (unfold is_text in *; congruence). rewrite T1, T3 in ET by easy.
        apply (text_one_way _ _ (escape_text (p_val p))); [apply text_written_escape|rewrite ET; apply text_written_escape].
      - assert (I' : ~ is_text q) by (unfold is_text in *; congruence). now rewrite T2, T4 in ET by easy. }
    destruct p as [k v ps], q as [k0 v0 ps0]. cbn [p_key p_params p_val] in *. now subst.
  Qed.

  (** ** Trees *)

  Definition lines_text (ps : list property) : str := concat (map (fun p => prop_line p ++ [CR; LF]) ps).
  Definition subs_text (cs : list tree) : str := concat (map (fun c => render CrLf (wtree_of c)) cs).
  Lemma render_eq : forall k ps cs r, render CrLf (wtree_of (Node k ps cs)) ++ r
    = lit "BEGIN:" ++ k ++ [CR; LF] ++ lines_text ps ++ subs_text cs ++ lit "END:" ++ k ++ [CR; LF] ++ r.
  Proof.
    intros k ps cs r. rewrite render_wtree_of. rewrite <- !app_assoc. do 3 f_equal. unfold lines_text, subs_text. f_equal.
    - f_equal. apply map_ext. intros p. now rewrite line_of_text.
  Qed.
  (** The words a component or its end starts with. *)
  Definition word (r : str) : Prop := exists x, r = lit "BEGIN:" ++ x \/ r = lit "END:" ++ x.
  Lemma rest_word : forall cs k x, word (subs_text cs ++ lit "END:" ++ k ++ x).
  Proof.
    intros [|[k0 ps cs0] cs] k x; [exists (k ++ x); now right|]. unfold subs_text. cbn [map concat]. rewrite render_wtree_of, <- !app_assoc. eexists. left. reflexivity.
  Qed.
  Lemma prop_not_word : forall p r, line_good p -> ~ word (prop_line p ++ r).
  Proof.
    intros p r ((P1 & _) & _) (x & W). destruct P1 as (P1 & N1 & N2 & _). unfold prop_line in W.
    assert (K : exists c y, (p_key p ++ params_text (p_params p) ++ COLON :: value_text p) ++ r = p_key p ++ c :: y /\ ~ no_sep c).
    { destruct (p_params p) as [|[k z] ps]; eexists _, _; rewrite <- !app_assoc; (split; [unfold params_text; cbn [map concat app]; reflexivity|]); intros N; apply N; cbn; auto. }
    destruct K as (c & y & K & S). rewrite K in W. clear K.
    assert (B : forall s, Forall no_sep s -> forall z, p_key p ++ c :: y = s ++ COLON :: z -> p_key p = s).
    { intros s F z E. assert (NE : ~ no_sep COLON) by (intros N; apply N; cbn; auto). now destruct (split_at no_sep _ _ c COLON y z (name_seps _ P1) F S NE E) as (-> & _). }
    destruct W as [W|W].
    - apply N2. change (lit "BEGIN:" ++ x) with (lit "BEGIN" ++ COLON :: x) in W. apply B in W; [exists []; now rewrite app_nil_r|].
      repeat constructor; intros I; vm_compute in I; intuition discriminate.
    - apply N1. change (lit "END:" ++ x) with (lit "END" ++ COLON :: x) in W. apply B in W; [exists []; now rewrite app_nil_r|].
      repeat constructor; intros I; vm_compute in I; intuition discriminate.
  Qed.
  Lemma lines_one_way : forall ps qs r r', Forall line_good ps -> Forall line_good qs -> word r -> word r' ->
    lines_text ps ++ r = lines_text qs ++ r' -> ps = qs /\ r = r'.
  Proof.
    induction ps as [|p ps IH]; intros [|q qs] r r' P Q W W' E; unfold lines_text in E; cbn [map concat app] in E.
    - easy.
    - exfalso. rewrite E in W. inversion Q; subst. rewrite <- !app_assoc in W. now apply prop_not_word in W.
    - exfalso. rewrite <- E in W'. inversion P; subst. rewrite <- !app_assoc in W'. now apply prop_not_word in W'.
    - inversion P; inversion Q; subst. rewrite <- !app_assoc in E. destruct (line_one p q _ _ ltac:(assumption) ltac:(assumption) E) as [-> E'].
      destruct (IH qs r r') as [-> ->]; easy.
  Qed.
  Lemma tree_one_way : forall t, tree_fine t -> forall t' r r', tree_fine t' ->
    render CrLf (wtree_of t) ++ r = render CrLf (wtree_of t') ++ r' -> t = t' /\ r = r'.
  Proof.
    induction t as [k ps cs IH] using tree_deep. intros G [k' ps' cs'] r r' G' E. rewrite !render_eq in E.
    inversion G as [? ? ? K P C]; inversion G' as [? ? ? K' P' C']; subst.
    apply app_inv_head in E. assert (SC : ~ no_sep CR) by (intros N; apply N; cbn; auto).
    destruct (split_at no_sep k k' CR CR _ _ (name_seps _ K) (name_seps _ K') SC SC E) as (-> & _ & E1). injection E1 as E1.
    destruct (lines_one_way ps ps' _ _ P P' (rest_word _ _ _) (rest_word _ _ _) E1) as [-> E2].
    assert (S : cs = cs' /\ r = r').
    { clear - IH C C' E2 K SC. revert cs' C' E2. induction IH as [|c cs Hc _ IH]; intros [|c' cs'] C' E2; unfold subs_text in E2; cbn [map concat app] in E2.
      - apply app_inv_head, app_inv_head in E2. injection E2 as ->. easy.
      - destruct c' as [k0 ps0 cs0]. rewrite render_wtree_of, <- !app_assoc in E2. discriminate E2.
      - destruct c as [k0 ps0 cs0]. rewrite render_wtree_of, <- !app_assoc in E2. discriminate E2.
      - inversion C; inversion C'; subst. rewrite <- !app_assoc in E2. destruct (Hc ltac:(assumption) c' _ _ ltac:(assumption) E2) as [-> E3].
        destruct (IH ltac:(assumption) cs' ltac:(assumption) E3) as [-> ->]. easy. }
    destruct S as [-> ->]. easy.
  Qed.
  Lemma trees_same_text : forall t t' s, tree_fine t -> tree_fine t' -> tree_write t = Ret s -> tree_write t' = Ret s -> t = t'.
  Proof.
    intros t t' s G G' W W'. apply tree_text_unfold in W, W'; try easy.
    apply (tree_one_way t G t' [] [] G'). now rewrite !app_nil_r, <- W, W'.
  Qed.
End Inject.

Section Data.
  Context {U : Unicode}.
  Theorem props_same_text : forall p q s, line_fine p -> line_fine q -> prop_write p = Ret s -> prop_write q = Ret s -> p = q.
  Proof.
    intros p q s P Q W V. apply line_fine_good in P, Q.
    assert (E : Node (lit "A") [p] [] = Node (lit "A") [q] []); [|now injection E].
    assert (T : forall x, line_good x -> tree_fine (Node (lit "A") [x] [])).
    { intros x X. constructor; [now apply name_ok_spec|now constructor|constructor]. }
    apply (trees_same_text _ _ (lit "BEGIN:A" ++ [CR; LF] ++ s ++ lit "END:A" ++ [CR; LF]) (T p P) (T q Q));
      rewrite tree_write_eq; cbn [props_write trees_write]; [rewrite W|rewrite V]; cbn [obind]; now rewrite app_nil_r.
  Qed.

  (** ** Components *)
  Lemma cc_tree : forall e c n s m, clock_ok e -> comp_fine c -> cc_write e c n = Ret (s, m) ->
    exists t, t = fst (stamp_tree e (cc_kind c) (cc_inner c) n) /\ tree_fine t /\ tree_write t = Ret s /\ arranged e (cc_kind c) (cc_inner c) t.
  Proof.
    intros e c n s m C (K & M & O) W. apply made_well in M. unfold cc_write in W. rewrite inner_write_tree in W by easy. eexists. split; [reflexivity|].
    destruct (tree_write _) as [s0| |] eqn:T; cbn [obind] in W; try easy. injection W as <- _.
    split; [now apply fit_fine, stamp_tree_fit|]. split; [easy|]. now apply stamp_tree_arranged.
  Qed.
  Theorem comp_same_text : forall e e' c d n n' m m' s, clock_ok e -> clock_ok e' -> comp_fine c -> comp_fine d ->
    cc_write e c n = Ret (s, m) -> cc_write e' d n' = Ret (s, m') ->
    exists t, arranged e (cc_kind c) (cc_inner c) t /\ arranged e' (cc_kind d) (cc_inner d) t.
  Proof.
    intros e e' c d n n' m m' s C C' F F' W W'. destruct (cc_tree e c n s m C F W) as (t & _ & G & T & A).
    destruct (cc_tree e' d n' s m' C' F' W') as (t' & _ & G' & T' & A').
    rewrite (trees_same_text t t' s G G' T T') in A. now exists t'.
  Qed.
  Lemma cal_fit : forall e c, cal_fine c -> tree_fine (cal_tree e c).
  Proof.
    intros e c [P F]. apply fit_fine. constructor; [apply name_ok_spec; reflexivity|easy|]. generalize 0.
    induction F as [|x cs (K & M & O) _ IH]; intros n; cbn [kinds map stamp_trees fst]; constructor; [|apply IH].
    apply stamp_tree_fit; [now apply made_well|easy|easy].
  Qed.
  Lemma subs_arranged : forall e cs n, Forall comp_fine cs ->
    Forall2 (fun x t => arranged e (cc_kind x) (cc_inner x) t) cs (fst (stamp_trees e (kinds cs) n)).
  Proof.
    intros e cs n F. revert n. induction F as [|x cs (K & M & O) _ IH]; intros n; cbn [kinds map stamp_trees fst]; constructor; [|apply IH].
    now apply stamp_tree_arranged, made_well.
  Qed.
  Theorem cal_same_text : forall e e' c d s, clock_ok e -> clock_ok e' -> cal_fine c -> cal_fine d -> cal_write e c = Ret s -> cal_write e' d = Ret s ->
    c_props c = c_props d
    /\ exists ts, Forall2 (fun x t => arranged e (cc_kind x) (cc_inner x) t) (c_comps c) ts
       /\ Forall2 (fun x t => arranged e' (cc_kind x) (cc_inner x) t) (c_comps d) ts.
  Proof.
    intros e e' c d s C C' F F' W W'. rewrite cal_write_tree in W, W' by easy.
    pose proof (trees_same_text _ _ s (cal_fit e c F) (cal_fit e' d F') W W') as E. unfold cal_tree in E. injection E as EP ES. split; [easy|].
    exists (fst (stamp_trees e (kinds (c_comps c)) 0)). split; [apply subs_arranged, F|]. rewrite ES. apply subs_arranged, F'.
  Qed.

  (** ** With DTSTAMP, UID and one use of each name *)
  Lemma part_split : forall (M : str -> Prop) a b x y, Forall (fun p => ~ M (p_key p)) a -> Forall (fun p => ~ M (p_key p)) b ->
    Forall (fun p => M (p_key p)) x -> Forall (fun p => M (p_key p)) y -> a ++ x = b ++ y -> a = b /\ x = y.
  Proof.
    intros M. induction a as [|p a IH]; intros [|q b] x y A B X Y E; cbn [app] in E.
    - easy.
    - subst. inversion X; inversion B; subst. tauto.
    - subst. inversion Y; inversion A; subst. tauto.
    - injection E as -> E. inversion A; inversion B; subst. destruct (IH b x y) as [-> ->]; easy.
  Qed.
  Lemma groups_one : forall (a b : list (str * list property)), ksorted a -> ksorted b ->
    Forall (fun '(k, ps) => ps <> [] /\ Forall (fun p => p_key p = k) ps) a -> Forall (fun '(k, ps) => ps <> [] /\ Forall (fun p => p_key p = k) ps) b ->
    concat (map snd a) = concat (map snd b) -> a = b.
  Proof.
    assert (T : forall (m : list (str * list property)) k, below k m -> Forall (fun '(k, ps) => ps <> [] /\ Forall (fun p => p_key p = k) ps) m ->
      Forall (fun p => p_key p <> k) (concat (map snd m))).
    { intros m k B F. apply Forall_concat, Forall_map, Forall_forall. intros [j ps] I. unfold below in B. rewrite Forall_forall in B, F.
      pose proof (B _ I) as L. destruct (F _ I) as [_ K]. cbn [fst snd] in *. eapply Forall_impl; [|exact K]. cbn beta. intros p -> ->.
      assert (R : str_cmp k k = Eq) by now apply str_cmp_eq. congruence. }
    intros a. induction a as [|[k ps] a IH]; intros [|[j qs] b] A B FA FB E; cbn [map concat snd] in E.
    - easy.
    - destruct (Forall_inv FB) as [Q _]. now destruct qs.
    - destruct (Forall_inv FA) as [Q _]. now destruct ps.
    - inversion A as [|? ? ? A1 A2]; inversion B as [|? ? ? B1 B2]; subst.
      destruct (Forall_inv FA) as [P1 P2], (Forall_inv FB) as [Q1 Q2]. apply Forall_inv_tail in FA, FB. rename FA into FA', FB into FB'.
      assert (k = j).
      { destruct ps as [|p ps]; [easy|]. destruct qs as [|q qs]; [easy|]. cbn [app] in E. injection E as -> _. apply Forall_inv in P2, Q2. congruence. }
      subst j. destruct (part_split (fun x => x <> k) ps qs (concat (map snd a)) (concat (map snd b))) as [-> E'].
      + eapply Forall_impl; [|exact P2]. cbn beta. tauto.
      + eapply Forall_impl; [|exact Q2]. cbn beta. tauto.
      + now apply T.
      + now apply T.
      + easy.
      + now rewrite (IH b A2 B2 FA' FB' E').
  Qed.
  Lemma own_one : forall (a b : list (str * property)), Forall (fun '(k, p) => p_key p = k) a -> Forall (fun '(k, p) => p_key p = k) b ->
    map snd a = map snd b -> a = b.
  Proof.
    induction a as [|[k p] a IH]; intros [|[j q] b] A B E; try easy. cbn [map snd] in E. injection E as -> E. inversion A; inversion B; subst.
    now rewrite (IH b).
  Qed.
  Lemma inner_one : forall M i j e e' k n k' n', well_made i -> well_made j -> has_stamps i -> has_stamps j -> separated M i -> separated M j ->
    fst (stamp_tree e k i n) = fst (stamp_tree e' k' j n') -> i = j.
  Proof.
    intros M. induction i as [ps ms cs IH] using inner_deep. intros [ps' ms' cs'] e e' k n k' n' W W' H H' S S' E.
    inversion W as [? [A1 A2 A3 A4] A5]; inversion W' as [? [B1 B2 B3 B4] B5]; subst. inversion H as [? T1 T2 H3]; inversion H' as [? T1' T2' H3']; subst.
    inversion S as [? S1 S2 S3]; inversion S' as [? S1' S2' S3']; subst. cbn [i_props i_multi i_comps] in *.
    rewrite !stamp_tree_eq in E. cbn zeta in E. cbn [fst] in E. unfold stamp_of, uid_of in E.
    destruct (map_get (lit "DTSTAMP") ps) eqn:X1; [|easy]. destruct (map_get (lit "UID") ps) eqn:X2; [|easy].
    destruct (map_get (lit "DTSTAMP") ps') eqn:X3; [|easy]. destruct (map_get (lit "UID") ps') eqn:X4; [|easy].
    cbn [fst snd app] in E. injection E as _ EP EC.
    assert (O : forall ps : list (str * property), ksorted ps -> Forall (fun '(k, p) => p_key p = k) ps -> (forall k p, map_get k ps = Some p -> ~ M k) ->
      Forall (fun p => ~ M (p_key p)) (map snd ps)).
    { clear. intros ps K F G. apply Forall_map, Forall_forall. intros [k p] I. rewrite Forall_forall in F. cbn [snd]. rewrite (F _ I). apply (G k p). now apply ksorted_get. }
    assert (Q : forall ms : list (str * list property), ksorted ms -> Forall (fun '(k, ps) => ps <> [] /\ Forall (fun p => p_key p = k) ps) ms ->
      (forall k ps, map_get k ms = Some ps -> M k) -> Forall (fun p => M (p_key p)) (concat (map snd ms))).
    { clear. intros ms K F G. apply Forall_concat, Forall_map, Forall_forall. intros [k ps] I. rewrite Forall_forall in F. destruct (F _ I) as [_ L].
      cbn [snd]. eapply Forall_impl; [|exact L]. cbn beta. intros p ->. apply (G k ps). now apply ksorted_get. }
    destruct (part_split M _ _ _ _ (O ps A1 A2 S1) (O ps' B1 B2 S1') (Q ms A3 A4 S2) (Q ms' B3 B4 S2') EP) as [E1 E2].
    apply own_one in E1; [|easy|easy]. apply groups_one in E2; try easy. subst ps' ms'. f_equal.
    clear - IH EC A5 B5 H3 H3' S3 S3'. revert EC. generalize n, n'. revert cs' B5 H3' S3'. induction IH as [|[k c] cs Hc _ IH]; intros [|[j d] ds] B5 H3' S3' n0 n0' EC;
      cbn [stamp_trees fst] in EC; try easy. injection EC as E1 E2.
    inversion A5; inversion B5; inversion H3; inversion H3'; inversion S3; inversion S3'; subst. cbn [fst snd] in *.
    assert (k = j).
    { apply (f_equal t_name) in E1. now rewrite !stamp_tree_name in E1. }
    rewrite (Hc d e e' k n0 j n0'), (IH ltac:(assumption) ltac:(assumption) ltac:(assumption) ds ltac:(assumption) ltac:(assumption) ltac:(assumption) _ _ E2) by easy. now subst.
  Qed.
  Definition kind_inner (k : str) (i : inner) : cal_component :=
    if str_eqb k (lit "VEVENT") then CEvent i else if str_eqb k (lit "VTODO") then CTodo i
    else if str_eqb k (lit "VVENUE") then CVenue i else COther (k, i).
  Lemma proper_is : forall c, proper_kind c -> c = kind_inner (cc_kind c) (cc_inner c).
  Proof.
    intros [i|i|i|[k i]] P; try reflexivity. specialize (P _ eq_refl). cbn [fst] in P. unfold kind_inner. cbn [cc_kind cc_inner].
    destruct (str_eqb k (lit "VEVENT")) eqn:E1; [apply str_eqb_eq in E1; exfalso; apply P; now left|].
    destruct (str_eqb k (lit "VTODO")) eqn:E2; [apply str_eqb_eq in E2; exfalso; apply P; right; now left|].
    destruct (str_eqb k (lit "VVENUE")) eqn:E3; [apply str_eqb_eq in E3; exfalso; apply P; right; right; now left|]. easy.
  Qed.
  Lemma comp_one : forall M e e' c d n n', comp_fine c -> comp_fine d -> unmistakable M c -> unmistakable M d ->
    fst (stamp_tree e (cc_kind c) (cc_inner c) n) = fst (stamp_tree e' (cc_kind d) (cc_inner d) n') -> c = d.
  Proof.
    intros M e e' c d n n' (_ & M1 & _) (_ & M2 & _) (S1 & P1 & K1) (S2 & P2 & K2) E. apply made_well in M1, M2.
    assert (EK : cc_kind c = cc_kind d) by (apply (f_equal t_name) in E; now rewrite !stamp_tree_name in E).
    rewrite (proper_is c K1), (proper_is d K2). rewrite (inner_one M _ _ _ _ _ _ _ _ M1 M2 S1 S2 P1 P2 E). now rewrite EK.
  Qed.
  Theorem comp_determined : forall M e e' c d n n' m m' s, clock_ok e -> clock_ok e' -> comp_fine c -> comp_fine d ->
    unmistakable M c -> unmistakable M d -> cc_write e c n = Ret (s, m) -> cc_write e' d n' = Ret (s, m') -> c = d.
  Proof.
    intros M e e' c d n n' m m' s C C' F F' X X' W W'. destruct (cc_tree e c n s m C F W) as (t & Et & G & T & A).
    destruct (cc_tree e' d n' s m' C' F' W') as (t' & Et' & G' & T' & A'). apply (comp_one M e e' c d n n' F F' X X').
    rewrite <- Et, <- Et'. now apply (trees_same_text t t' s).
  Qed.
  Theorem cal_determined : forall M e e' c d s, clock_ok e -> clock_ok e' -> cal_fine c -> cal_fine d ->
    Forall (unmistakable M) (c_comps c) -> Forall (unmistakable M) (c_comps d) -> cal_write e c = Ret s -> cal_write e' d = Ret s -> c = d.
  Proof.
    intros M e e' [ps cs] [ps' cs'] s C C' F F' X X' W W'. rewrite cal_write_tree in W, W' by easy.
    pose proof (trees_same_text _ _ s (cal_fit e _ F) (cal_fit e' _ F') W W') as E. unfold cal_tree in E. cbn [c_props c_comps] in *. injection E as -> E. f_equal.
    destruct F as [_ F], F' as [_ F']. cbn [c_comps] in *. clear - F F' X X' E. revert E. generalize 0 at 2. generalize 0. revert cs' F' X'.
    induction F as [|c cs Fc _ IH]; intros [|d ds] F' X' n n' E; cbn [kinds map stamp_trees fst] in E; try easy. injection E as E1 E2.
    inversion F'; inversion X; inversion X'; subst. rewrite (comp_one M e e' c d n n'); try easy.
    now rewrite (IH ltac:(assumption) ds ltac:(assumption) ltac:(assumption) _ _ E2).
  Qed.
End Data.
