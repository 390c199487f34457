(** Exactly which calendars are read back from their own text. *)
From Verif Require Import Str StrFacts Spec Fold UnfoldProofs FoldProofs Text TextProofs ValueTypes Property Chrono DateTime
  Component Alarm Calendar Nom Parser SpecBuild SpecDate SpecTree SpecDoc SpecConv SpecRound SpecExact SpecAccess SpecAlike SpecShape SpecSurvive BuildProofs DateProofs ValueProofs
  TreeProofs ParserProofs DocProofs ConvProofs RoundProofs LfProofs ExactProofs AlikeProofs RoundChecks ShapeProofs.
From Coq Require Import ZifyBool ZifyNat ZifyN Permutation.

Lemma garbled_same : forall v, garbled v v <-> ~ confused v.
Proof.
  intros v. split.
  - assert (L : forall v w, garbled v w -> length w <= length v /\ (length w = length v -> ~ confused v)).
    { intros a b G. induction G as [|r t G [L _]|d r t D G [L _]|c r t C G [L K]]; cbn [length]; (split; [lia|]); intros E; try lia.
      - intros ([|x a] & d & b & H & _); discriminate H.
      - intros ([|x a] & d & b & H & I).
        + injection H as -> ->. apply C. split; [easy|]. now exists d, b.
        + injection H as -> ->. apply K; [lia|]. now exists a, d, b. }
    intros G. now apply L with (w := v).
  - intros N. induction v as [|c r IH]; [constructor|]. apply ga_keep.
    + intros (-> & d & q & -> & I). apply N. now exists [], d, q.
    + apply IH. intros (a & d & b & -> & I). apply N. now exists (c :: a), d, b.
Qed.

Section Survive.
  Context {U : Unicode}.

  (** All of [i] is in [j]. *)
  Inductive kept : inner -> inner -> Prop :=
  | Kept : forall i j,
      (forall k p, map_get k (i_props i) = Some p -> exists q, map_get k (i_props j) = Some q /\ reordered q p) ->
      (forall k l, map_get k (i_multi i) = Some l -> exists m, map_get k (i_multi j) = Some m /\ Forall2 reordered m l) ->
      Forall2 (fun o o' => fst o' = fst o /\ kept (snd o) (snd o')) (i_comps i) (i_comps j) ->
      kept i j.
  Lemma reordered_refl : forall p, reordered p p.
  Proof. intros p. now repeat split. Qed.
  Lemma forall2_same : forall A (R : A -> A -> Prop) l, (forall x, R x x) -> Forall2 R l l.
  Proof. intros A R l H. induction l; constructor; auto. Qed.
  Lemma stamped_kept : forall e i j, stamped e i j -> kept i j.
  Proof.
    intros e. induction i as [ps ms cs IH] using inner_deep. intros [ps' ms' cs'] S. inversion S as [? ? S1 S2 S3 S4 S5]; subst.
    cbn [i_props i_multi i_comps] in *. constructor; cbn [i_props i_multi i_comps].
    - intros k p H. exists p. split; [|apply reordered_refl]. destruct (str_eq_dec k (lit "DTSTAMP")) as [->|N1]; [now rewrite H in S2|].
      destruct (str_eq_dec k (lit "UID")) as [->|N2]; [now rewrite H in S3|]. now rewrite S1.
    - intros k l H. exists l. split; [congruence|]. apply forall2_same, reordered_refl.
    - clear - IH S5. revert IH. induction S5 as [|[k i] [k' j] cs cs' [E S] F IH2]; intros; constructor; inversion IH; subst; auto.
  Qed.
  Lemma same_cc_refl : forall x, same_cc x x.
  Proof. intros [i|i|i|o]; cbn [same_cc]; [| | |split; [easy|]]; apply same_inner_refl. Qed.
  Lemma same_kept : forall j i, same_inner j i -> kept i j.
  Proof.
    intros j i. revert j. induction i as [ps ms cs IH] using inner_deep. intros [ps' ms' cs'] S. inversion S as [? ? S1 S2 S3]; subst.
    cbn [i_props i_multi i_comps] in *. constructor; cbn [i_props i_multi i_comps].
    - intros k p H. specialize (S1 k). rewrite H in S1. inversion S1; subst. eexists. split; [reflexivity|easy].
    - intros k p H. specialize (S2 k). rewrite H in S2. inversion S2; subst. eexists. split; [reflexivity|easy].
    - clear - IH S3. revert IH. induction S3 as [|[k i] [k' j] cs cs' [E S] F IH2]; intros; constructor; inversion IH; subst; auto.
  Qed.
  Lemma same_has : forall j i, same_inner j i -> has_stamps j -> has_stamps i.
  Proof.
    intros j i. revert j. induction i as [ps ms cs IH] using inner_deep. intros [ps' ms' cs'] S H. inversion S as [? ? S1 S2 S3]; subst.
    inversion H as [? H1 H2 H3]; subst. cbn [i_props i_multi i_comps] in *. constructor; cbn [i_props i_multi i_comps].
    - specialize (S1 (lit "DTSTAMP")). now inversion S1; subst; congruence.
    - specialize (S1 (lit "UID")). now inversion S1; subst; congruence.
    - clear - IH S3 H3. revert IH H3. induction S3 as [|[k i] [k' j] cs cs' [E S] F IH2]; intros; constructor; inversion IH; inversion H3; subst; eauto.
  Qed.
  Lemma same_cc_has : forall d x, same_cc d x -> has_stamps (cc_inner d) -> has_stamps (cc_inner x).
  Proof. intros [j|j|j|[k' j]] [i|i|i|[k i]] S; try easy; apply same_has; apply S. Qed.

  Lemma reordered_shape : forall q p, reordered q p -> prop_shape q -> prop_shape p.
  Proof.
    intros q p (E & _ & P) (S1 & S2 & S3). split; [now rewrite <- E|]. split; [now apply (Permutation_Forall P)|].
    eapply Permutation_NoDup; [|exact S3]. now apply Permutation_map.
  Qed.
  Lemma kept_shape : forall i j, kept i j -> inner_shape j -> inner_shape i.
  Proof.
    induction i as [ps ms cs IH] using inner_deep. intros [ps' ms' cs'] K H. inversion K as [? ? K1 K2 K3]; subst. inversion H as [? H1 H2 H3]; subst.
    cbn [i_props i_multi i_comps] in *. constructor; cbn [i_props i_multi i_comps].
    - intros k p G. destruct (K1 k p G) as (q & G' & R). destruct (H1 k q G') as (M & E & S). split; [easy|].
      split; [|now apply (reordered_shape q)]. destruct R as [R _]. congruence.
    - intros k l G. destruct (K2 k l G) as (m & G' & R). destruct (H2 k m G') as (M & E & S). split; [easy|]. split; [now inversion R; subst|].
      clear - R S. induction R as [|q p m l Q _ IH]; [constructor|]. inversion S as [|? ? [S1 S2] S3]; subst. constructor; [|now apply IH].
      split; [now destruct Q|now apply (reordered_shape q)].
    - clear - IH K3 H3. revert IH H3. induction K3 as [|[k i] [k' j] cs cs' [E S] F IH2]; intros; constructor; inversion IH; inversion H3; subst; cbn [fst snd] in *.
      + subst. split; [tauto|]. eapply H1; [eassumption|tauto].
      + now apply IH2.
  Qed.
  Lemma shape_line : forall p, prop_shape p -> line_tame p -> line_fine p.
  Proof.
    intros p ((A & B & C) & F & D) (E1 & E2 & G & V). split; [|easy]. split; [now repeat split|]. split; [|easy].
    rewrite Forall_forall in *. intros q I. destruct (F q I) as [X Y], (G q I) as [Z W]. split; [easy|]. split; [easy|].
    destruct Y as [Y|[Y1 Y2]]; [now left|right]. now repeat split.
  Qed.
  Lemma shape_fine : forall i, inner_shape i -> inner_all line_tame i -> inner_fine i.
  Proof.
    induction i as [ps ms cs IH] using inner_deep. intros H Q. inversion H as [? H1 H2 H3]; subst. inversion Q as [? Q1 Q2 Q3]; subst. constructor.
    - intros k p G. destruct (H1 k p G) as (M & _ & S). apply shape_line; [easy|now apply (Q1 k)].
    - intros k l G. destruct (H2 k l G) as (M & _ & S). specialize (Q2 k l G). rewrite Forall_forall in *. intros p I.
      apply shape_line; [now apply S|now apply Q2].
    - cbn [i_comps] in *. rewrite Forall_forall in *. intros o I. destruct (H3 o I) as [N S]. split; [easy|]. apply IH; try easy. now apply Q3.
  Qed.

  (** A line that is read as it was. *)
  Lemma line_kept : forall p, line_fine p -> p_val (conv_prop (pline p)) = p_val p -> prop_ok p.
  Proof.
    intros p F E. destruct (line_reread p F) as (_ & _ & G & _). destruct F as [H V]. split; [easy|]. split; [|easy].
    intros T. apply garbled_same. specialize (G T). now rewrite E in G.
  Qed.
  Lemma back_has : forall e i kind n, well_made i -> has_stamps (back e kind i n).
  Proof.
    intros e. induction i as [ps ms cs IH] using inner_deep. intros kind n W. unfold back. rewrite stamp_tree_eq. cbn zeta. cbn [fst].
    inversion W as [? [B1 B2 B3 B4] D]; subst. cbn [i_props i_multi i_comps] in *.
    constructor.
    - rewrite conv_single_of. change (is_multi_name (lit "DTSTAMP")) with false. cbv iota. rewrite !last_with_app.
      destruct (last_with _ (concat _)); [easy|]. destruct (last_with _ (fst (uid_of _ _ _))); [easy|]. rewrite last_with_map by easy.
      unfold stamp_of. now destruct (map_get (lit "DTSTAMP") ps).
    - rewrite conv_single_of. change (is_multi_name (lit "UID")) with false. cbv iota. rewrite !last_with_app.
      destruct (last_with _ (concat _)); [easy|]. unfold uid_of. rewrite last_with_map by easy. now destruct (map_get (lit "UID") ps).
    - rewrite ptree_eq, conv_inner_comps. generalize (snd (uid_of e ps (snd (stamp_of e ps n)))). intros m.
      clear - IH D. revert m. induction IH as [|[k c] cs H _ IH]; intros m; [constructor|].
      inversion D; subst. cbn [stamp_trees fst snd map] in *. constructor; [|now apply IH]. cbn [snd]. now apply H.
  Qed.
  Lemma kept_ok : forall e i kind n, well_made i -> inner_shape i -> inner_fine i -> kept i (back e kind i n) -> inner_ok i.
  Proof.
    intros e. induction i as [ps ms cs IH] using inner_deep. intros kind n W O F K. unfold back in K. rewrite stamp_tree_eq in K. cbn zeta in K. cbn [fst] in K.
    set (st := fst (stamp_of e ps n)) in *. set (ud := fst (uid_of e ps (snd (stamp_of e ps n)))) in *.
    set (ct := fst (stamp_trees e cs (snd (uid_of e ps (snd (stamp_of e ps n)))))) in *.
    inversion W as [? [B1 B2 B3 B4] D]; subst. inversion O as [? O1 O2 O3]; subst. inversion F as [? F1 F2 F3]; subst. inversion K as [? ? K1 K2 K3]; subst.
    cbn [i_props i_multi i_comps] in *.
    assert (ST : st = match map_get (lit "DTSTAMP") ps with Some _ => [] | None => [utc_prop "DTSTAMP" (now_at e n)] end).
    { unfold st, stamp_of. now destruct (map_get _ ps). }
    assert (UD : ud = match map_get (lit "UID") ps with Some _ => [] | None => [text_prop "UID" (fmt_uuid (uuid_at e (snd (stamp_of e ps n))))] end).
    { unfold ud, uid_of. now destruct (map_get (lit "UID") ps). }
    assert (M0 : forall k, is_multi_name k = false -> Forall (fun p => p_key p <> k) (concat (map snd ms))).
    { intros k N. apply Forall_forall. intros p I E. apply in_concat in I as (l & I & J). apply in_map_iff in I as ([k2 l2] & <- & I).
      rewrite Forall_forall in B4. specialize (B4 _ I) as B. cbn in B. destruct B as [_ B]. rewrite Forall_forall in B. apply B in J.
      apply (ksorted_get _ _ _ _ B3), O2 in I as [I _]. apply is_multi_name_spec in I. congruence. }
    assert (S0 : forall k, is_multi_name k = true -> Forall (fun p => p_key p <> k) (map snd ps)).
    { intros k N. apply Forall_forall. intros p I E. apply in_map_iff in I as ([k2 p2] & <- & I). cbn [snd] in E.
      rewrite Forall_forall in B2. specialize (B2 _ I) as B. cbn in B. apply (ksorted_get _ _ _ _ B1), O1 in I as [I _].
      apply multi_name_not in I. congruence. }
    constructor; cbn [i_props i_multi i_comps].
    - intros k p G. pose proof (O1 k p G) as (N & Kp & _). split; [easy|]. apply line_kept; [now apply (F1 k)|].
      destruct (K1 k p G) as (q & G' & (_ & R & _)). apply multi_name_not in N. rewrite conv_single_of, N in G'.
      rewrite !last_with_app, (last_with_none k (concat _)) in G' by now apply M0.
      rewrite (last_with_none k ud) in G'.
      + rewrite (last_with_map k ps), G in G' by easy. cbn [option_map] in G'. injection G' as <-. exact R.
      + rewrite UD. destruct (map_get (lit "UID") ps) eqn:E; constructor; [|constructor]. cbn [text_prop p_key]. intros X.
        rewrite <- X in G. congruence.
    - intros k l G. pose proof (O2 k l G) as (N & _ & _). split; [easy|].
      assert (Q : forall (m : list property), Forall line_fine m -> Forall2 reordered (map (fun p => conv_prop (pline p)) m) m -> Forall prop_ok m).
      { clear. intros m Fm R. induction Fm as [|p m P _ IHm]; [constructor|]. cbn [map] in R. inversion R as [|? ? ? ? (_ & V & _)]; subst.
        constructor; [now apply line_kept|now apply IHm]. }
      apply Q; [now apply (F2 k)|]. clear Q. destruct (K2 k l G) as (m & G' & R). apply is_multi_name_spec in N. rewrite conv_multi_of, N in G'.
      rewrite !filter_app in G'. rewrite (filter_none k st), (filter_none k (map snd ps)), (filter_none k ud) in G'.
      + cbn [app] in G'. pose proof (filter_multi k ms (ksorted_NoDup _ _ B3) B4) as Z. rewrite G in Z.
        destruct (filter _ (concat (map snd ms))) as [|x y]; [discriminate Z|]. injection Z as <-. injection G' as <-. exact R.
      + rewrite UD. destruct (map_get (lit "UID") ps); constructor; [|constructor]. intros <-. now vm_compute in N.
      + now apply S0.
      + rewrite ST. destruct (map_get (lit "DTSTAMP") ps); constructor; [|constructor]. intros <-. now vm_compute in N.
    - rewrite ptree_eq, conv_inner_comps in K3. unfold ct in K3. revert K3. generalize (snd (uid_of e ps (snd (stamp_of e ps n)))). intros m K3.
      clear - IH D O3 F3 K3. revert m K3. induction IH as [|[k c] cs H _ IH]; intros m K3; [constructor|].
      inversion D; inversion O3; inversion F3; subst. cbn [stamp_trees fst snd map] in *. inversion K3 as [|? ? ? ? [_ K4] K5]; subst.
      constructor; [|now apply (IH ltac:(assumption) ltac:(assumption) ltac:(assumption) _ K5)]. cbn [fst snd] in *. split; [tauto|]. apply (H k m); tauto.
  Qed.

  (** ** Components and calendars *)

  (** The two kinds of equality. *)
  Definition held (x d : cal_component) : Prop := cc_kind d = cc_kind x /\ kept (cc_inner x) (cc_inner d) /\ (kind_ok d -> kind_ok x).
  Lemma stamped_held : forall e x d, cc_stamped e x d -> held x d.
  Proof. intros e x d S. destruct S; (split; [easy|]; split; [cbn [cc_inner]; eapply stamped_kept; eassumption|easy]). Qed.
  Lemma same_held : forall x d, same_cc d x -> held x d.
  Proof.
    intros [i|i|i|[k i]] [j|j|j|[k' j]] S; try easy; cbn [same_cc fst snd] in S; (split; [|split]); try easy; try (now apply same_kept).
    destruct S as [-> _]. easy.
  Qed.
  Lemma conv_back : forall e x n, kind_ok x -> cc_inner (conv_cc (ptree (fst (stamp_tree e (cc_kind x) (cc_inner x) n)))) = back e (cc_kind x) (cc_inner x) n.
  Proof. intros e x n K. rewrite conv_cc_back by easy. now destruct x as [i|i|i|[k i]]. Qed.
  Lemma held_ok : forall e x n, made (cc_inner x) -> kind_ok x -> inner_shape (cc_inner x) -> inner_all line_tame (cc_inner x) ->
    held x (conv_cc (ptree (fst (stamp_tree e (cc_kind x) (cc_inner x) n)))) -> comp_ok x.
  Proof.
    intros e x n M K S T (_ & H & _). rewrite conv_back in H by easy. split; [easy|]. split; [easy|].
    eapply kept_ok; [now apply made_well|easy|now apply shape_fine|exact H].
  Qed.
  Lemma held_shape : forall x d, held x d -> comp_shape d -> comp_shape x.
  Proof. intros x d (_ & K & H) [A B]. split; [now apply H|now apply (kept_shape _ (cc_inner d))]. Qed.

  Theorem comp_survives : forall e x n s n' d, clock_ok e -> made (cc_inner x) -> inner_all line_tame (cc_inner x) -> cc_write e x n = Ret (s, n') ->
    cc_from_str s = Ok d -> held x d -> comp_ok x /\ d = conv_cc (ptree (fst (stamp_tree e (cc_kind x) (cc_inner x) n))).
  Proof.
    intros e x n s n' d C M T W R H. pose proof (held_shape _ _ H (component_shape s d R)) as [K S].
    pose proof (shape_fine _ S T) as F. unfold cc_write in W. rewrite inner_write_tree in W by easy.
    destruct (tree_write _) as [s0| |] eqn:Tw; cbn [obind] in W; try easy. injection W as <- _.
    assert (G : tree_fine (fst (stamp_tree e (cc_kind x) (cc_inner x) n))).
    { apply fit_fine, stamp_tree_fit; [now apply made_well|easy|now apply kind_name]. }
    unfold cc_from_str in R. rewrite (tree_text_unfold _ _ G Tw) in R. destruct (doc_back _ G) as [R' _]. rewrite R' in R. cbn [rmap] in R.
    injection R as <-. split; [|easy]. now apply (held_ok e x n).
  Qed.
  Theorem cal_survives : forall e c s d, clock_ok e -> Forall (fun x => made (cc_inner x)) (c_comps c) -> cal_all line_tame c -> cal_write e c = Ret s ->
    calendar_from_str s = Ok d -> Forall2 reordered (c_props d) (c_props c) -> Forall2 held (c_comps c) (c_comps d) ->
    cal_ok c /\ d = conv_cal (mk_pcal (map pline (c_props c)) (map ptree (t_subs (cal_tree e c)))).
  Proof.
    intros e c s d C M [T1 T2] W R P H. pose proof (calendar_shape s d R) as [S1 S2].
    assert (Sp : Forall prop_shape (c_props c)).
    { clear - S1 P. induction P as [|q p ds ps Q _ IH]; [constructor|]. inversion S1; subst. constructor; [now apply (reordered_shape q)|now apply IH]. }
    assert (Sc : Forall comp_shape (c_comps c)).
    { clear - S2 H. induction H as [|x y xs ys Q _ IH]; [constructor|]. inversion S2; subst. constructor; [now apply (held_shape x y)|now apply IH]. }
    assert (Fp : Forall line_fine (c_props c)).
    { rewrite Forall_forall in *. intros p I. apply shape_line; auto. }
    assert (Fc : Forall comp_fine (c_comps c)).
    { rewrite Forall_forall in *. intros x I. destruct (Sc x I) as [K S]. split; [now apply kind_name|]. split; [auto|]. apply shape_fine; auto. }
    rewrite cal_write_tree in W by easy.
    assert (G : tree_fine (cal_tree e c)).
    { apply fit_fine. constructor; [apply name_ok_spec; reflexivity|easy|]. clear - Fc. generalize 0.
      induction Fc as [|x l (K & M & O) _ IH]; intros n; cbn [kinds map stamp_trees fst]; constructor; [|apply IH].
      apply stamp_tree_fit; [now apply made_well|easy|easy]. }
    unfold calendar_from_str in R. rewrite (tree_text_unfold _ _ G W) in R. destruct (doc_back _ G) as [_ R']. rewrite R' in R by easy.
    cbn [rmap] in R. injection R as <-. split; [|easy]. unfold conv_cal, cal_tree in P, H. cbn [pcal_props pcal_comps t_props t_subs c_props c_comps] in P, H.
    rewrite map_map in P, H. split.
    - clear - P Fp. induction Fp as [|p l F _ IH]; [constructor|]. cbn [map] in P. inversion P as [|? ? ? ? (_ & V & _)]; subst.
      constructor; [now apply line_kept|now apply IH].
    - clear - H M T2 Sc. revert H. generalize 0. induction M as [|x l M _ IH]; intros n H; [constructor|]. inversion T2; inversion Sc as [|? ? [K S] Sc2]; subst.
      cbn [kinds map stamp_trees fst snd] in H. inversion H; subst. constructor; [|eapply IH; eassumption].
      apply (held_ok e x n); assumption.
  Qed.

  Theorem comp_exact : forall e x n s n', clock_ok e -> made (cc_inner x) -> inner_all line_tame (cc_inner x) -> cc_write e x n = Ret (s, n') ->
    ((exists d, cc_from_str s = Ok d /\ cc_stamped e x d) <-> comp_ok x)
    /\ ((exists d, cc_from_str s = Ok d /\ same_cc d x) <-> comp_ok x /\ has_stamps (cc_inner x))
    /\ (cc_from_str s = Ok x <-> comp_ok x /\ has_stamps (cc_inner x)).
  Proof.
    intros e x n s n' C M T W.
    assert (A : comp_ok x -> exists d, cc_from_str s = Ok d /\ cc_stamped e x d /\ well_made (cc_inner d)).
    { intros (K & _ & O). pose proof W as W'. unfold cc_write in W'. rewrite inner_write_tree in W' by easy.
      destruct (tree_write _) as [s0| |] eqn:Tw; cbn [obind] in W'; try easy. injection W' as <- _.
      assert (G : tree_fine (fst (stamp_tree e (cc_kind x) (cc_inner x) n))).
      { apply tree_good_fine, stamp_tree_good; [now apply made_well|easy|now apply kind_name]. }
      unfold cc_from_str. rewrite (tree_text_unfold _ _ G Tw). destruct (doc_back _ G) as [R _]. rewrite R. cbn [rmap].
      eexists. split; [reflexivity|]. split.
      - rewrite conv_cc_back by easy. pose proof (fun k => back_stamped e (cc_inner x) k n (made_well _ M) O) as B. pose proof (kind_name x K) as N.
        destruct x as [i|i|i|[k i]]; constructor; now apply B.
      - rewrite (proj2 (conv_cc_kind _)). apply conv_inner_well. }
    assert (B : comp_ok x /\ has_stamps (cc_inner x) -> cc_from_str s = Ok x).
    { intros [O H]. destruct (A O) as (d & E & S & Wd). rewrite E. f_equal.
      destruct S; cbn [cc_inner] in *; f_equal; try f_equal; (eapply stamped_same; [now apply made_well|exact Wd|exact H|eassumption]). }
    pose proof (same_cc_refl x) as R.
    assert (D : (exists d, cc_from_str s = Ok d /\ same_cc d x) -> comp_ok x /\ has_stamps (cc_inner x)).
    { intros (d & E & S). destruct (comp_survives e x n s n' d C M T W E (same_held _ _ S)) as [O ->]. split; [easy|].
      pose proof (back_has e (cc_inner x) (cc_kind x) n (made_well _ M)) as H. rewrite <- conv_back in H by apply O.
      eapply same_cc_has; eassumption. }
    split; [|split].
    - split.
      + intros (d & E & S). now apply (comp_survives e x n s n' d C M T W E (stamped_held _ _ _ S)).
      + intros O. destruct (A O) as (d & E & S & _). now exists d.
    - split; [exact D|]. intros O. exists x. split; [now apply B|exact R].
    - split; [|exact B]. intros E. apply D. now exists x.
  Qed.
  Theorem cal_exact : forall e c s, clock_ok e -> Forall (fun x => made (cc_inner x)) (c_comps c) -> cal_all line_tame c -> cal_write e c = Ret s ->
    ((exists d, calendar_from_str s = Ok d /\ c_props d = c_props c /\ Forall2 (cc_stamped e) (c_comps c) (c_comps d)) <-> cal_ok c)
    /\ ((exists d, calendar_from_str s = Ok d /\ same_cal d c) <-> cal_ok c /\ Forall (fun x => has_stamps (cc_inner x)) (c_comps c))
    /\ (calendar_from_str s = Ok c <-> cal_ok c /\ Forall (fun x => has_stamps (cc_inner x)) (c_comps c)).
  Proof.
    intros e c s C M T W.
    assert (R : same_cal c c).
    { split; apply forall2_same; [apply reordered_refl|apply same_cc_refl]. }
    assert (D : (exists d, calendar_from_str s = Ok d /\ same_cal d c) -> cal_ok c /\ Forall (fun x => has_stamps (cc_inner x)) (c_comps c)).
    { intros (d & E & S1 & S2).
      assert (H : Forall2 held (c_comps c) (c_comps d)).
      { clear - S2. induction S2; constructor; [now apply same_held|easy]. }
      destruct (cal_survives e c s d C M T W E S1 H) as [O ->]. split; [easy|].
      unfold conv_cal, cal_tree in S2. cbn [pcal_props pcal_comps t_props t_subs c_props c_comps] in S2. rewrite map_map in S2.
      destruct O as [_ O]. clear - S2 M O. revert S2. generalize 0. induction M as [|x l M _ IH]; intros n S2; [constructor|]. inversion O as [|? ? [K _] O2]; subst.
      cbn [kinds map stamp_trees fst snd] in S2. inversion S2 as [|? ? ? ? S3 S4]; subst. constructor; [|eapply IH; eassumption].
      pose proof (back_has e (cc_inner x) (cc_kind x) n (made_well _ M)) as H. rewrite <- conv_back in H by apply K.
      eapply same_cc_has; eassumption. }
    split; [|split].
    - split.
      + intros (d & E & P & S). assert (H : Forall2 held (c_comps c) (c_comps d)).
        { clear - S. induction S; constructor; [eapply stamped_held; eassumption|easy]. }
        apply (cal_survives e c s d C M T W E); [|exact H]. rewrite P. apply forall2_same, reordered_refl.
      + intros O. destruct (cal_round e c s C O W) as (d & E & P & F & _). now exists d.
    - split; [exact D|]. intros [O H]. exists c. split; [now apply (cal_fixed e c s)|exact R].
    - split; [|now intros [O H]; apply (cal_fixed e c s)]. intros E. apply D. now exists c.
  Qed.

  (** ** What can be read at all *)

  Lemma ok_shape_prop : forall p, prop_ok p -> prop_shape p /\ (is_text p -> ~ confused (p_val p)).
  Proof.
    intros p [((A & B & C & _) & F & D) [V _]]. split; [|easy]. split; [easy|]. split; [|easy]. eapply Forall_impl; [|exact F].
    intros q [X [_ Y]]. split; [easy|]. tauto.
  Qed.
  Lemma ok_shape : forall i, well_made i -> inner_ok i -> inner_shape i /\ inner_all (fun p => is_text p -> ~ confused (p_val p)) i.
  Proof.
    induction i as [ps ms cs IH] using inner_deep. intros W O. inversion W as [? [B1 B2 B3 B4] D]; subst. inversion O as [? O1 O2 O3]; subst.
    cbn [i_props i_multi i_comps] in *. rewrite Forall_forall in B2, B4.
    assert (C : Forall (fun o => inner_shape (snd o) /\ inner_all (fun p => is_text p -> ~ confused (p_val p)) (snd o)) cs).
    { rewrite Forall_forall in *. intros o I. apply IH; [easy|now apply D|now apply O3]. }
    split; constructor; cbn [i_props i_multi i_comps].
    - intros k p G. destruct (O1 k p G) as [M P]. apply StrFacts.map_get_in in G. split; [easy|]. split; [now apply (B2 (k, p))|now apply ok_shape_prop].
    - intros k l G. destruct (O2 k l G) as [M P]. apply StrFacts.map_get_in in G. destruct (B4 (k, l) G) as [N K]. split; [easy|]. split; [easy|].
      rewrite Forall_forall in *. intros p I. split; [now apply K|]. now apply ok_shape_prop, P.
    - rewrite Forall_forall in *. intros o I. split; [now apply O3|now apply C].
    - intros k p G. destruct (O1 k p G) as [M P]. now apply ok_shape_prop.
    - intros k l G. destruct (O2 k l G) as [M P]. eapply Forall_impl; [|exact P]. intros p Q. now apply ok_shape_prop.
    - eapply Forall_impl; [|exact C]. now intros o [].
  Qed.
  Theorem tame_shape : forall c, Forall (fun x => made (cc_inner x)) (c_comps c) -> cal_all line_tame c ->
    (cal_ok c <-> cal_shape c /\ cal_all (fun p => is_text p -> ~ confused (p_val p)) c).
  Proof.
    intros c M T. split.
    - intros [P O]. rewrite Forall_forall in *. repeat split; rewrite Forall_forall.
      + intros p I. now apply ok_shape_prop, P.
      + intros x I. destruct (O x I) as (K & _ & J). split; [easy|]. apply ok_shape; [now apply made_well, M|easy].
      + intros p I. now apply ok_shape_prop, P.
      + intros x I. destruct (O x I) as (K & _ & J). apply ok_shape; [now apply made_well, M|easy].
    - intros [[S1 S2] N].
      assert (Q : cal_all prop_quiet c).
      { revert T N. apply cal_all_and. intros p (A & B & C & D) N. split; [easy|]. split; [easy|]. split; [easy|]. now split. }
      destruct Q as [Q1 Q2]. rewrite Forall_forall in *. split; rewrite Forall_forall.
      + intros p I. apply prop_shape_ok; [now apply S1|now apply Q1].
      + intros x I. destruct (S2 x I) as [K S]. split; [easy|]. split; [now apply M|]. apply inner_shape_ok; [easy|now apply Q2].
  Qed.

  Definition line_tameb (p : property) : bool :=
    negb (str_eqb (map lower_ascii (p_key p)) (lit "end")) && negb (str_eqb (map lower_ascii (p_key p)) (lit "begin"))
    && forallb (fun q => match snd q with c :: _ => negb (c =? DQ)%N | [] => true end && without [LF] (snd q)) (p_params p)
    && (is_textb p || without [LF] (p_val p)).
  Lemma line_tameb_spec : forall p, line_tameb p = true -> line_tame p.
  Proof.
    intros p H. unfold line_tameb in H. rewrite !andb_true_iff, !negb_true_iff in H. destruct H as [[[H1 H2] H3] H4].
    apply str_eqb_neq in H1, H2. split; [easy|]. split; [easy|]. split.
    - rewrite forallb_forall in H3. apply Forall_forall. intros [k w] I. specialize (H3 _ I). cbn [snd] in *. rewrite andb_true_iff in H3. destruct H3 as [A B]. split.
      + intros [r R]. rewrite R in A. discriminate A.
      + apply mark_free_no_lf, (without_spec _ _ B). now left.
    - intros N. destruct (is_textb p) eqn:T; [now apply is_textb_spec in T|]. cbn [orb] in H4.
      pose proof (without_spec _ _ H4 LF (or_introl eq_refl)) as L. split; [|now apply mark_free_no_lf].
      intros (a & b & E). apply L. rewrite E. apply in_or_app. right. right. now left.
  Qed.
End Survive.
