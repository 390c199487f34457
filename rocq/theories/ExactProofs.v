(** What is read back from serialized text. *)
From Verif Require Import Str StrFacts Spec Fold UnfoldProofs FoldProofs Text TextProofs ValueTypes Property Chrono DateTime
  Component Alarm Calendar Nom Parser SpecBuild SpecDate SpecTree SpecDoc SpecConv SpecRound SpecExact BuildProofs DateProofs ValueProofs
  TreeProofs ParserProofs DocProofs ConvProofs RoundProofs LfProofs.
From Coq Require Import ZifyBool ZifyNat ZifyN.

(** ** TEXT values *)

Definition half (t : str) : str := flat_map half_piece (map esc_piece t).
Lemma half_cons : forall c t, half (c :: t) = half_piece (esc_piece c) ++ half t.
Proof. easy. Qed.
Lemma unescape_half : forall t, unescape_text (escape_text t) = multi code (half t).
Proof.
  intros t. rewrite escape_wire, unescape_two, replace_wire; [easy|]. apply Forall_map, Forall_forall. intros. apply esc_piece_rfc.
Qed.
Lemma half_char : forall c, c <> LF -> c <> BSL -> c <> COMMA -> c <> SEMI -> half_piece (esc_piece c) = [c].
Proof.
  intros c A B C D. unfold esc_piece. apply N.eqb_neq in A, B, C, D. now rewrite A, B, C, D.
Qed.
Lemma garbled_half : forall t, garbled t (multi code (half t)).
Proof.
  intros t. remember (length t) as n eqn:E. revert t E. induction n as [n IH] using lt_wf_ind. intros t ->.
  destruct t as [|c t]; [constructor|]. rewrite half_cons.
  assert (K : garbled t (multi code (half t))) by (eapply IH; [|reflexivity]; cbn; lia).
  destruct (N.eq_dec c BSL) as [->|N1].
  - change (half_piece (esc_piece BSL)) with [BSL]. cbn [app multi]. change (BSL =? BSL)%N with true. cbv iota.
    destruct t as [|d t]; [constructor; [intros (_ & ? & ? & H & _); discriminate|constructor]|].
    assert (K2 : garbled t (multi code (half t))) by (eapply IH; [|reflexivity]; cbn; lia).
    destruct (N.eq_dec d COLON) as [->|M1]; [now constructor|].
    destruct (N.eq_dec d 78) as [->|M2]; [rewrite half_cons; cbn [half_piece esc_piece app]; now apply ga_lf; auto|].
    destruct (N.eq_dec d 110) as [->|M3]; [rewrite half_cons; cbn [half_piece esc_piece app]; now apply ga_lf; auto|].
    assert (Q : multi code (half (BSL :: d :: t)) = BSL :: multi code (half (d :: t))).
    { rewrite half_cons. change (half_piece (esc_piece BSL)) with [BSL]. cbn [app multi]. change (BSL =? BSL)%N with true. cbv iota.
      assert (Z : exists x r, half (d :: t) = x :: r /\ code x = None).
      { rewrite half_cons. destruct (N.eq_dec d BSL) as [->|N2]; [now exists BSL, (half t)|].
        destruct (N.eq_dec d LF) as [->|N3]; [now exists BSL, (78%N :: half t)|].
        destruct (N.eq_dec d COMMA) as [->|N4]; [now exists BSL, (COMMA :: half t)|].
        destruct (N.eq_dec d SEMI) as [->|N5]; [now exists BSL, (SEMI :: half t)|].
        rewrite half_char by easy. exists d, (half t). split; [easy|]. unfold code. apply N.eqb_neq in M1, M2, M3, N4, N5.
        now rewrite M1, M2, M3, N4, N5. }
      destruct Z as (x & r & -> & ->). easy. }
    rewrite half_cons in Q. change (half_piece (esc_piece BSL)) with [BSL] in Q. cbn [app multi] in Q. change (BSL =? BSL)%N with true in Q.
    cbv iota in Q. rewrite Q. apply ga_keep; [|easy]. intros (_ & x & q & H & I). injection H as <- <-. cbn in I. intuition congruence.
  - destruct (N.eq_dec c LF) as [->|N2]; [change (garbled (LF :: t) (LF :: multi code (half t))); apply ga_keep; [now intros [? _]|easy]|].
    destruct (N.eq_dec c COMMA) as [->|N3]; [change (garbled (COMMA :: t) (COMMA :: multi code (half t))); apply ga_keep; [now intros [? _]|easy]|].
    destruct (N.eq_dec c SEMI) as [->|N4]; [change (garbled (SEMI :: t) (SEMI :: multi code (half t))); apply ga_keep; [now intros [? _]|easy]|].
    rewrite half_char by easy. cbn [app multi]. apply N.eqb_neq in N1 as N5. rewrite N5. apply ga_keep; [now intros [? _]|easy].
Qed.
Lemma garbled_fun : forall t a b, garbled t a -> garbled t b -> a = b.
Proof.
  intros t a b A. revert b. induction A as [|r t A IH|d r t D A IH|c r t C A IH]; intros b B.
  - now inversion B.
  - inversion B as [|? ? B1|? ? ? D B1|? ? ? C B1]; subst; [f_equal; now apply IH|destruct D; discriminate|].
    destruct C. split; [easy|]. exists COLON, r. split; [easy|]. now left.
  - inversion B as [|? ? B1|? ? ? D' B1|? ? ? C B1]; subst; [destruct D; discriminate|f_equal; now apply IH|].
    destruct C. split; [easy|]. exists d, r. split; [easy|]. cbn. destruct D as [->| ->]; auto.
  - inversion B as [|? ? B1|? ? ? D' B1|? ? ? C' B1]; subst; [| |f_equal; now apply IH].
    + destruct C. split; [easy|]. eexists _, _. split; [reflexivity|]. now left.
    + destruct C. split; [easy|]. eexists _, _. split; [reflexivity|]. cbn. destruct D' as [->| ->]; auto.
Qed.
Lemma garbled_eq : forall t w, unescape_text (escape_text t) = w <-> garbled t w.
Proof.
  intros t w. rewrite unescape_half. split; [intros <-; apply garbled_half|]. intros G. eapply garbled_fun; [apply garbled_half|easy].
Qed.

Section Exact.
  Context {U : Unicode}.

  Lemma line_fine_good : forall p, line_fine p -> line_good p.
  Proof.
    intros p [H V]. split; [easy|]. destruct (value_text_of p) as [T1 T2]. destruct (is_text_dec p) as [T|T].
    - rewrite T1 by easy. pose proof (escape_no_lf (p_val p)) as N. split; [now apply mark_free_no_lf|].
      intros (a & b & E). apply N. rewrite E. apply in_or_app. right. right. now left.
    - rewrite T2 by easy. split; now apply V.
  Qed.
  Lemma line_reread : forall p, line_fine p -> reread p (conv_prop (pline p)).
  Proof.
    intros p [(_ & _ & N) _]. unfold pline. rewrite line_of_conv by easy. split; [easy|]. split; [easy|]. cbn [p_val]. unfold is_text. split.
    - intros ->. now apply garbled_eq.
    - intros T. destruct (prop_value_type p) as [[]|]; easy.
  Qed.
  Lemma prop_ok_fine : forall p, prop_ok p -> line_fine p.
  Proof. intros p [H [_ V]]. now split. Qed.

  Theorem prop_reads : forall p s, line_fine p -> prop_write p = Ret s -> exists q, property_from_str (unfold s) = Ok q /\ reread p q.
  Proof.
    intros p s F W. destruct (line_fine_good p F) as (H & M & C). unfold property_from_str. rewrite (prop_round_head p s) by easy.
    cbn [rmap]. eexists. split; [reflexivity|]. now apply line_reread.
  Qed.

  (** ** Trees *)

  Lemma last_with_spec : forall k l, match last_with k l with
    | Some p => last_of p_key k l p | None => Forall (fun p => p_key p <> k) l end.
  Proof.
    intros k l. induction l as [|p l IH] using rev_ind; [constructor|]. rewrite last_with_app. unfold last_with at 1. cbn [rev app find].
    destruct (str_eqb (p_key p) k) eqn:E.
    - apply str_eqb_eq in E. exists l, []. now split.
    - apply str_eqb_neq in E. destruct (last_with k l) as [q|].
      + destruct IH as (a & b & -> & K & F). exists a, (b ++ [p]). split; [now rewrite <- app_assoc|]. split; [easy|].
        apply Forall_app. split; [easy|]. now constructor.
      + apply Forall_app. split; [easy|]. now constructor.
  Qed.
  Lemma filter_picked : forall k l, picked p_key k l (filter (fun p => str_eqb (p_key p) k) l).
  Proof.
    intros k l. induction l as [|p l IH]; [constructor|]. cbn [filter]. destruct (str_eqb (p_key p) k) eqn:E.
    - apply str_eqb_eq in E. now constructor.
    - apply str_eqb_neq in E. now constructor.
  Qed.
  Lemma filter_nil : forall k l, filter (fun p => str_eqb (p_key p) k) l = [] -> Forall (fun p => p_key p <> k) l.
  Proof.
    intros k l. induction l as [|p l IH]; [constructor|]. cbn [filter]. destruct (str_eqb (p_key p) k) eqn:E; [discriminate|].
    intros H. constructor; [now apply str_eqb_neq|now apply IH].
  Qed.
  Lemma tree_read_as : forall t, tree_fit line_fine t -> read_as t (conv_inner (ptree t)).
  Proof.
    induction t as [k ps cs IH] using tree_deep. intros G. inversion G as [? ? ? K P C]; subst. constructor.
    - intros key M. apply multi_name_not in M. rewrite conv_single_of, conv_multi_of, M. split; [|easy].
      pose proof (last_with_spec key ps) as L. destruct (last_with key ps) as [p|]; cbn [option_map]; [|easy].
      exists p. split; [easy|]. apply line_reread. destruct L as (a & b & -> & _). apply Forall_app in P as [_ P]. now inversion P.
    - intros key M. apply is_multi_name_spec in M. rewrite conv_single_of, conv_multi_of, M. split; [|easy].
      pose proof (filter_picked key ps) as L. pose proof (filter_nil key ps) as Z.
      destruct (filter _ ps) as [|p l] eqn:F; [now apply Z|]. exists (p :: l). split; [easy|]. split; [discriminate|].
      assert (Q : Forall line_fine (p :: l)).
      { rewrite <- F. apply Forall_forall. intros q I. apply filter_In in I as [I _]. rewrite Forall_forall in P. now apply P. }
      clear - Q. induction Q; constructor; [now apply line_reread|easy].
    - rewrite ptree_eq, conv_inner_comps. clear - IH C. induction IH as [|c cs H _ IH]; [constructor|]. inversion C; subst.
      cbn [map]. constructor; [|now apply IH]. cbn [fst snd]. split; [apply ptree_name|now apply H].
  Qed.

  Lemma stamp_tree_fit : forall e i kind n, well_made i -> inner_fine i -> name_ok kind -> tree_fit line_fine (fst (stamp_tree e kind i n)).
  Proof.
    intros e. induction i as [ps ms cs IH] using inner_deep. intros kind n W O K. rewrite stamp_tree_eq. cbn zeta. cbn [fst].
    inversion W as [? [B1 B2 B3 B4] D]; subst. inversion O as [? O1 O2 O3]; subst. cbn [i_props i_multi i_comps] in *.
    constructor; [easy| |].
    - repeat (apply Forall_app; split).
      + unfold stamp_of. destruct (map_get _ ps); [constructor|]. constructor; [apply prop_ok_fine, stamp_prop_ok|constructor].
      + apply Forall_map, Forall_forall. intros [k p] I. apply (ksorted_get _ _ _ _ B1), O1 in I. apply I.
      + unfold uid_of. destruct (map_get _ ps); [constructor|]. constructor; [apply prop_ok_fine, uid_prop_ok|constructor].
      + apply Forall_concat, Forall_map, Forall_forall. intros [k p] I. apply (ksorted_get _ _ _ _ B3), O2 in I. apply I.
    - generalize (snd (uid_of e ps (snd (stamp_of e ps n)))). intros m. clear - IH D O3. revert m.
      induction IH as [|[k c] cs H _ IH]; intros m; [constructor|]. inversion D; inversion O3; subst. cbn [fst snd] in *.
      constructor; [apply H; try easy; tauto|now apply IH].
  Qed.
  Lemma fit_fine : forall t, tree_fit line_fine t -> tree_fine t.
  Proof. apply tree_fit_impl, line_fine_good. Qed.

  (** ** Components and calendars *)

  Lemma conv_cc_reread : forall e x n, comp_fine x ->
    comp_reread e x (conv_cc (ptree (fst (stamp_tree e (cc_kind x) (cc_inner x) n)))).
  Proof.
    intros e x n (K & M & O). apply made_well in M. destruct (conv_cc_kind (ptree (fst (stamp_tree e (cc_kind x) (cc_inner x) n)))) as [C1 C2].
    rewrite ptree_name, stamp_tree_name in C1. split.
    - split; [easy|]. intros o E I. unfold conv_cc in E. rewrite ptree_name, stamp_tree_name in E.
      destruct I as [I|[I|[I|[]]]]; rewrite <- I in E; discriminate E.
    - exists (fst (stamp_tree e (cc_kind x) (cc_inner x) n)). split; [now apply stamp_tree_arranged|]. rewrite C2. apply tree_read_as.
      now apply stamp_tree_fit.
  Qed.
  Theorem comp_reads : forall e x n s n', clock_ok e -> comp_fine x -> cc_write e x n = Ret (s, n') ->
    exists d, cc_from_str s = Ok d /\ comp_reread e x d.
  Proof.
    intros e x n s n' C F W. unfold cc_write in W. rewrite inner_write_tree in W by easy.
    destruct (tree_write _) as [s0| |] eqn:T; cbn [obind] in W; try easy. injection W as <- _.
    assert (G : tree_fine (fst (stamp_tree e (cc_kind x) (cc_inner x) n))).
    { destruct F as (K & M & O). apply fit_fine, stamp_tree_fit; [now apply made_well|easy|easy]. }
    unfold cc_from_str. rewrite (tree_text_unfold _ _ G T). destruct (doc_back _ G) as [R _]. rewrite R. cbn [rmap].
    eexists. split; [reflexivity|]. now apply conv_cc_reread.
  Qed.
  Theorem cal_reads : forall e c s, clock_ok e -> cal_fine c -> cal_write e c = Ret s ->
    exists d, calendar_from_str s = Ok d /\ Forall2 reread (c_props c) (c_props d) /\ Forall2 (comp_reread e) (c_comps c) (c_comps d).
  Proof.
    intros e c s C [P F] W. rewrite cal_write_tree in W by easy.
    assert (G : tree_fine (cal_tree e c)).
    { apply fit_fine. constructor; [apply name_ok_spec; reflexivity|easy|]. clear - F. generalize 0.
      induction F as [|x l (K & M & O) _ IH]; intros n; cbn [kinds map stamp_trees fst]; constructor; [|apply IH].
      apply stamp_tree_fit; [now apply made_well|easy|easy]. }
    unfold calendar_from_str. rewrite (tree_text_unfold _ _ G W). destruct (doc_back _ G) as [_ R]. rewrite R by easy.
    cbn [rmap]. eexists. split; [reflexivity|]. unfold conv_cal, cal_tree. cbn [pcal_props pcal_comps t_props t_subs c_props c_comps].
    rewrite !map_map. split.
    - clear - P. induction P as [|p l H _ IH]; [constructor|]. cbn [map]. constructor; [now apply line_reread|easy].
    - clear - F. generalize 0. induction F as [|x l H _ IH]; intros n; [constructor|].
      cbn [kinds map stamp_trees fst snd]. constructor; [now apply conv_cc_reread|apply IH].
  Qed.
End Exact.
