(** Calendars that differ only in texts. *)
From Verif Require Import Str StrFacts Spec Fold Text ValueTypes Property Chrono DateTime
  Component Alarm Calendar Nom Parser SpecBuild SpecDate SpecTree SpecDoc SpecConv SpecRound SpecExact SpecAlike SpecUser BuildProofs ValueProofs
  TreeProofs ParserProofs DocProofs ConvProofs RoundProofs AlikeProofs ExactProofs EqualProofs.
From Coq Require Import ZifyBool ZifyNat ZifyN.

Section User.
  Context {U : Unicode}.

  Lemma text_only_is : forall p q, text_only p q -> (is_text p <-> is_text q).
  Proof. intros p q (K & P & _). unfold is_text, prop_value_type. now rewrite K, P. Qed.
  Lemma text_only_fine : forall p q, text_only p q -> line_fine p -> line_fine q.
  Proof.
    intros p q T [H V]. pose proof (text_only_is p q T) as I. destruct T as (K & P & E). split; [unfold head_ok in *; now rewrite <- K, <- P|].
    intros N. rewrite <- E by tauto. apply V. tauto.
  Qed.

  Section Text.
    Context (W : property -> property -> Prop) (HW : forall p q, W p q -> text_only p q).

    Lemma rel_fine_all : forall l m, Forall2 W l m -> Forall line_fine l -> Forall line_fine m.
    Proof. intros l m F. induction F as [|p q l m E _ IH]; intros G; constructor; inversion G; subst; [eapply text_only_fine; eauto|auto]. Qed.
    Lemma rel_fine : forall i j, inner_rel W i j -> inner_fine i -> inner_fine j.
    Proof.
      induction i as [ps ms cs IH] using inner_deep. intros j R O. inversion R as [? ? R1 R2 R3]; subst. inversion O as [? O1 O2 O3]; subst.
      cbn [i_props i_multi i_comps] in *. constructor.
      - intros k q G. specialize (R1 k). rewrite G in R1. inversion R1 as [|p ? E Ep]; subst. symmetry in Ep. eapply text_only_fine; [apply HW, E|]. now apply (O1 k).
      - intros k qs G. specialize (R2 k). rewrite G in R2. inversion R2 as [|p ? E Ep]; subst. symmetry in Ep. eapply rel_fine_all; [exact E|]. now apply (O2 k).
      - clear - IH R3 O3. induction R3 as [|[n c] [m d] cs ds [E H] _ IHl]; constructor; inversion IH; inversion O3; subst; cbn [fst snd] in *; [|auto].
        subst. split; [tauto|]. eapply H2; [exact H|tauto].
    Qed.

    Lemma rel_cal_fine : forall c d, cal_rel W c d -> cal_fine c -> Forall (fun x => made (cc_inner x)) (c_comps d) -> cal_fine d.
    Proof.
      intros c d [R1 R2] [P F] M. split; [now apply (rel_fine_all (c_props c))|]. induction R2 as [|x y l m H _ IH]; constructor; inversion F as [|? ? (K & _ & O) F']; inversion M; subst; [|auto].
      assert (R : cc_kind x = cc_kind y /\ inner_rel W (cc_inner x) (cc_inner y)).
      { destruct x as [i|i|i|[a i]], y as [j|j|j|[b j]]; cbn [cc_rel cc_kind cc_inner fst snd] in *; try easy. }
      destruct R as [E R]. split; [now rewrite <- E|]. split; [easy|]. eapply rel_fine; eauto.
    Qed.
  End Text.

  Section Rel.
    Context (W : property -> property -> Prop) (HW : forall p q, W p q -> p_key p = p_key q).

    Definition or_same (p q : property) : Prop := p = q \/ W p q.
    Lemma or_same_key : forall p q, or_same p q -> p_key p = p_key q.
    Proof. intros p q [->|H]; [easy|]. now apply HW. Qed.
    Inductive tree_rel : tree -> tree -> Prop :=
    | Tree_rel : forall k ps qs cs ds, Forall2 or_same ps qs -> Forall2 tree_rel cs ds -> tree_rel (Node k ps cs) (Node k qs ds).

    Lemma same_all : forall l, Forall2 or_same l l.
    Proof. induction l; constructor; [now left|easy]. Qed.
    Lemma rel_or_same : forall l m, Forall2 W l m -> Forall2 or_same l m.
    Proof. intros l m F. induction F; constructor; [now right|easy]. Qed.
    Lemma stamp_tree_rel : forall e i j k n, well_made i -> well_made j -> inner_rel W i j ->
      tree_rel (fst (stamp_tree e k i n)) (fst (stamp_tree e k j n)) /\ snd (stamp_tree e k i n) = snd (stamp_tree e k j n).
    Proof.
      intros e. induction i as [ps ms cs IH] using inner_deep. intros [qs ns ds] k n Wi Wj R. rewrite !stamp_tree_eq. cbn zeta. cbn [fst snd].
      inversion Wi as [? [B1 _ B3 _] Ci]; subst. inversion Wj as [? [D1 _ D3 _] Cj]; subst. inversion R as [? ? R1 R2 R3]; subst. cbn [i_props i_multi i_comps] in *.
      assert (ST : forall m, stamp_of e ps m = stamp_of e qs m) by (intros m; unfold stamp_of; destruct (R1 (lit "DTSTAMP")); easy).
      assert (UD : forall m, uid_of e ps m = uid_of e qs m) by (intros m; unfold uid_of; destruct (R1 (lit "UID")); easy).
      rewrite !ST, !UD. generalize (snd (uid_of e qs (snd (stamp_of e qs n)))). intros m.
      assert (T : forall m, Forall2 tree_rel (fst (stamp_trees e cs m)) (fst (stamp_trees e ds m)) /\ snd (stamp_trees e cs m) = snd (stamp_trees e ds m)).
      { clear - IH Ci Cj R3. induction R3 as [|[a c] [b d] cs ds [E H] _ IHl]; intros m; [split; [constructor|easy]|].
        inversion IH as [|? ? H1 H2]; inversion Ci; inversion Cj; subst. cbn [fst snd stamp_trees] in *. subst b. destruct (H1 d a m) as [T1 T2]; try easy. rewrite <- T2.
        destruct (IHl H2) with (m := snd (stamp_tree e a c m)) as [X Y]; try easy. split; [now constructor|easy]. }
      destruct (T m) as [T1 T2]. split; [|easy]. constructor; [|exact T1].
      apply (ksorted_rel _ _ _ _ _ B1 D1) in R1. apply (ksorted_rel _ _ _ _ _ B3 D3) in R2.
      apply Forall2_app; [apply same_all|]. apply Forall2_app; [apply rel_or_same; now apply forall2_snd|]. apply Forall2_app; [apply same_all|].
      apply rel_or_same. now apply forall2_concat, forall2_snd.
    Qed.
    Lemma kinds_rel : forall e cs ds, Forall (fun x => made (cc_inner x)) cs -> Forall (fun x => made (cc_inner x)) ds -> Forall2 (cc_rel W) cs ds -> forall n,
      Forall2 tree_rel (fst (stamp_trees e (kinds cs) n)) (fst (stamp_trees e (kinds ds) n)).
    Proof.
      intros e cs ds C D F. induction F as [|x y cs ds H _ IH]; intros n; [constructor|]. inversion C as [|? ? C1 C2]; inversion D as [|? ? D1 D2]; subst. cbn [kinds map stamp_trees fst snd].
      assert (R : cc_kind x = cc_kind y /\ inner_rel W (cc_inner x) (cc_inner y)).
      { destruct x as [i|i|i|[a i]], y as [j|j|j|[b j]]; cbn [cc_rel cc_kind cc_inner fst snd] in *; try easy. }
      destruct R as [K R]. rewrite <- K. destruct (stamp_tree_rel e _ _ (cc_kind x) n (made_well _ C1) (made_well _ D1) R) as [T1 T2].
      constructor; [exact T1|]. rewrite T2. now apply IH.
    Qed.

    (** Reading back. *)
    Lemma last_with_rel : forall k l m, Forall2 or_same l m -> opt_rel or_same (last_with k l) (last_with k m).
    Proof.
      intros k l m F. assert (G : Forall2 or_same (rev l) (rev m)).
      { induction F as [|p q l m H _ IH]; [constructor|]. cbn [rev]. apply Forall2_app; [exact IH|]. constructor; [exact H|constructor]. }
      unfold last_with. induction G as [|p q a b H _ IH]; [constructor|]. cbn [find]. rewrite <- (or_same_key _ _ H). destruct (str_eqb (p_key p) k); [now constructor|exact IH].
    Qed.
    Lemma filter_rel : forall k l m, Forall2 or_same l m -> Forall2 or_same (filter (fun p => str_eqb (p_key p) k) l) (filter (fun p => str_eqb (p_key p) k) m).
    Proof.
      intros k l m F. induction F as [|p q a b H _ IH]; [constructor|]. cbn [filter]. rewrite <- (or_same_key _ _ H). destruct (str_eqb (p_key p) k); [now constructor|exact IH].
    Qed.
    Definition back (p : property) : property := conv_prop (pline p).
    Lemma back_rel : forall p q, line_fine p -> line_fine q -> or_same p q -> read_rel W (back p) (back q).
    Proof. intros p q P Q [->|H]; [now left|]. right. exists p, q. split; [exact H|]. split; now apply line_reread. Qed.
    Lemma back_rel_all : forall l m, Forall line_fine l -> Forall line_fine m -> Forall2 or_same l m -> Forall2 (read_rel W) (map back l) (map back m).
    Proof. intros l m L M F. induction F as [|p q l m H _ IH]; [constructor|]. inversion L; inversion M; subst. cbn [map]. constructor; [now apply back_rel|auto]. Qed.
    Lemma tree_rel_name : forall t u, tree_rel t u -> t_name t = t_name u.
    Proof. intros t u H. now inversion H. Qed.
    Lemma tree_back_rel : forall t u, tree_fit line_fine t -> tree_fit line_fine u -> tree_rel t u ->
      inner_rel (read_rel W) (conv_inner (ptree t)) (conv_inner (ptree u)).
    Proof.
      induction t as [k ps cs IH] using tree_deep. intros u Ft Fu R. inversion R as [? ? qs ? ds R1 R2]; subst.
      inversion Ft as [? ? ? _ P C]; subst. inversion Fu as [? ? ? _ Q D]; subst. constructor.
      - intros key. rewrite !conv_single_of. destruct (is_multi_name key); [constructor|]. pose proof (last_with_rel key _ _ R1) as L.
        pose proof (last_with_spec key ps) as Lp. pose proof (last_with_spec key qs) as Lq.
        destruct L as [|p q H]; cbn [option_map]; constructor. apply back_rel; [| |exact H].
        + destruct Lp as (a & b & -> & _). apply Forall_app in P as [_ P]. now inversion P.
        + destruct Lq as (a & b & -> & _). apply Forall_app in Q as [_ Q]. now inversion Q.
      - intros key. rewrite !conv_multi_of. destruct (is_multi_name key); [|constructor]. pose proof (filter_rel key _ _ R1) as L.
        assert (Fp : forall l, Forall line_fine l -> Forall line_fine (filter (fun p => str_eqb (p_key p) key) l)).
        { intros l F. apply Forall_forall. intros x I. apply filter_In in I as [I _]. rewrite Forall_forall in F. now apply F. }
        pose proof (back_rel_all _ _ (Fp _ P) (Fp _ Q) L) as B. destruct L; constructor. exact B.
      - rewrite !ptree_eq, !conv_inner_comps. clear - IH C D R2. induction R2 as [|t u cs ds H _ IHl]; [constructor|]. inversion IH; inversion C; inversion D; subst. cbn [map].
        constructor; [|auto]. cbn [fst snd]. split; [rewrite !ptree_name; now apply tree_rel_name|auto].
    Qed.
    Lemma conv_cc_rel : forall t u, tree_fit line_fine t -> tree_fit line_fine u -> tree_rel t u -> cc_rel (read_rel W) (conv_cc (ptree t)) (conv_cc (ptree u)).
    Proof.
      intros t u Ft Fu R. pose proof (tree_back_rel t u Ft Fu R) as H. pose proof (tree_rel_name _ _ R) as N. unfold conv_cc. rewrite !ptree_name, <- N.
      repeat (destruct (str_eqb _ _); [exact H|]). split; [easy|exact H].
    Qed.
    Lemma cal_tree_fit : forall e c, cal_fine c -> tree_fit line_fine (cal_tree e c).
    Proof.
      intros e c [P F]. constructor; [apply name_ok_spec; reflexivity|easy|]. clear - F. generalize 0.
      induction F as [|x l (K & M & O) _ IH]; intros n; cbn [kinds map stamp_trees fst]; constructor; [|apply IH].
      apply stamp_tree_fit; [now apply made_well|easy|easy].
    Qed.
    Lemma fine_back : forall e c s, clock_ok e -> cal_fine c -> cal_write e c = Ret s ->
      calendar_from_str s = Ok (mk_calendar (map back (c_props c)) (map (fun t => conv_cc (ptree t)) (fst (stamp_trees e (kinds (c_comps c)) 0)))).
    Proof.
      intros e c s C F W'. rewrite cal_write_tree in W' by easy. pose proof (fit_fine _ (cal_tree_fit e c F)) as G.
      unfold calendar_from_str. rewrite (tree_text_unfold _ _ G W'). destruct (doc_back _ G) as [_ R]. rewrite R by easy.
      cbn [rmap]. f_equal. unfold conv_cal, cal_tree. cbn [pcal_props pcal_comps t_props t_subs c_props c_comps]. now rewrite !map_map.
    Qed.
    Theorem cal_values : forall e c c' s s', clock_ok e -> cal_fine c -> cal_fine c' -> cal_rel W c c' ->
      cal_write e c = Ret s -> cal_write e c' = Ret s' ->
      exists d d', calendar_from_str s = Ok d /\ calendar_from_str s' = Ok d' /\ cal_rel (read_rel W) d d'.
    Proof.
      intros e c c' s s' C F F' R X X'. eexists. eexists. split; [now apply (fine_back e c)|]. split; [now apply (fine_back e c')|].
      pose proof (cal_tree_fit e c F) as T. pose proof (cal_tree_fit e c' F') as T'. inversion T as [? ? ? _ P D]; inversion T' as [? ? ? _ P' D']; subst.
      destruct R as [R1 R2]. split; cbn [c_props c_comps].
      - apply back_rel_all; [easy|easy|]. now apply rel_or_same.
      - assert (N : Forall (fun x => made (cc_inner x)) (c_comps c)) by (eapply Forall_impl; [|apply F]; intros x (_ & N & _); exact N).
        assert (M : Forall (fun x => made (cc_inner x)) (c_comps c')) by (eapply Forall_impl; [|apply F']; intros x (_ & N' & _); exact N').
        pose proof (kinds_rel e _ _ N M R2 0) as K. clear - D D' K HW. induction K as [|t u l m H _ IH]; [constructor|]. inversion D; inversion D'; subst. cbn [map].
        constructor; [now apply conv_cc_rel|auto].
    Qed.
  End Rel.
  Theorem cal_user : forall (W : property -> property -> Prop), (forall p q, W p q -> text_only p q) ->
    forall e c c' s s', clock_ok e -> cal_fine c -> Forall (fun x => made (cc_inner x)) (c_comps c') -> cal_rel W c c' ->
      cal_write e c = Ret s -> cal_write e c' = Ret s' ->
      exists d d', calendar_from_str s = Ok d /\ calendar_from_str s' = Ok d' /\ cal_rel (read_rel W) d d'.
  Proof.
    intros W HW e c c' s s' C F M R X X'. apply (cal_values W) with (e := e) (c := c) (c' := c'); try easy; [intros p q H; apply HW in H; apply H|].
    now apply (rel_cal_fine W HW c).
  Qed.

  Lemma reread_text_only : forall p p' q q', text_only p p' -> reread p q -> reread p' q' -> text_only q q'.
  Proof.
    intros p p' q q' T (K & P & A & B) (K' & P' & A' & B'). pose proof (text_only_is _ _ T) as I. destruct T as (E & F & V).
    assert (J : is_text q <-> is_text p) by (unfold is_text, prop_value_type; now rewrite K, P).
    split; [congruence|]. split; [congruence|]. intros N. rewrite B, B' by tauto. apply V. tauto.
  Qed.
  Lemma inner_rel_impl : forall (V W : property -> property -> Prop), (forall p q, V p q -> W p q) -> forall i j, inner_rel V i j -> inner_rel W i j.
  Proof.
    intros V W H. induction i as [ps ms cs IH] using inner_deep. intros j R. inversion R as [? ? R1 R2 R3]; subst. constructor.
    - intros k. destruct (R1 k); constructor. auto.
    - intros k. destruct (R2 k) as [|l m F]; constructor. induction F; constructor; auto.
    - cbn [i_comps] in *. clear - IH R3. induction R3 as [|[n c] [m d] cs ds [E G] _ IHl]; constructor; inversion IH; subst; auto.
  Qed.
  Lemma cal_rel_impl : forall (V W : property -> property -> Prop), (forall p q, V p q -> W p q) -> forall c d, cal_rel V c d -> cal_rel W c d.
  Proof.
    intros V W H c d [A B]. split; [induction A; constructor; auto|]. induction B as [|x y l m E _ IH]; constructor; [|easy].
    destruct x as [i|i|i|[a i]], y as [j|j|j|[b j]]; cbn [cc_rel fst snd] in *; try easy; try (eapply inner_rel_impl; eauto; fail).
    destruct E. split; [easy|]. eapply inner_rel_impl; eauto.
  Qed.
  Lemma read_rel_text : forall (W : property -> property -> Prop), (forall p q, W p q -> text_only p q) -> forall q q', read_rel W q q' -> text_only q q'.
  Proof. intros W H q q' [->|(p & p' & X & A & B)]; [repeat split; easy|]. eapply reread_text_only; eauto. Qed.
  Lemma reread_fun : forall p q q', reread p q -> reread p q' -> q = q'.
  Proof.
    intros p [k v l] [k' v' l'] (K & P & A & B) (K' & P' & A' & B'). cbn [p_key p_val p_params] in *. subst. f_equal.
    destruct (is_text_dec p) as [T|T]; [eapply garbled_fun; eauto|]. now rewrite B, B' by easy.
  Qed.

  Lemma differ_text : forall K p q, differ_in K p q -> text_only p q.
  Proof. intros K p q (A & B & C). split; [easy|]. split; [easy|]. intros N. apply C. tauto. Qed.
  Lemma read_rel_differ : forall K q q', read_rel (differ_in K) q q' -> differ_in K q q'.
  Proof.
    intros K q q' [->|(p & p' & T & A & B)]; [repeat split; easy|]. pose proof (differ_text _ _ _ T) as T'. pose proof (reread_text_only _ _ _ _ T' A B) as (E & F & G).
    split; [easy|]. split; [easy|]. intros N. destruct T as (X & Y & Z). destruct A as (A1 & A2 & A3 & A4). destruct B as (B1 & B2 & B3 & B4).
    assert (J : is_text q <-> is_text p) by (unfold is_text, prop_value_type; now rewrite A1, A2).
    rewrite J, A1 in N. specialize (Z N). destruct p as [k v l], p' as [k' v' l']. cbn [p_key p_val p_params] in *. subst k' v' l'.
    assert (Q : q = q').
    { apply (reread_fun (mk_property k v l)); (split; [|split; [|split]]); [exact A1|exact A2|exact A3|exact A4|exact B1|exact B2|exact B3|exact B4]. }
    now rewrite Q.
  Qed.
  Theorem cal_confined : forall K e c c' s s', clock_ok e -> cal_fine c -> Forall (fun x => made (cc_inner x)) (c_comps c') -> cal_rel (differ_in K) c c' ->
    cal_write e c = Ret s -> cal_write e c' = Ret s' ->
    exists d d', calendar_from_str s = Ok d /\ calendar_from_str s' = Ok d' /\ cal_rel (differ_in K) d d'.
  Proof.
    intros K e c c' s s' C F M R X X'. destruct (cal_user (differ_in K) (differ_text K) e c c' s s' C F M R X X') as (d & d' & D & D' & R').
    exists d, d'. split; [easy|]. split; [easy|]. eapply cal_rel_impl; [|exact R']. apply read_rel_differ.
  Qed.

  (** Builder calls. *)
  Lemma last_with_W : forall (W : property -> property -> Prop) k l m, (forall p q, W p q -> p_key p = p_key q) -> Forall2 W l m -> opt_rel W (last_with k l) (last_with k m).
  Proof.
    intros W k l m HW F. assert (G : Forall2 W (rev l) (rev m)).
    { induction F as [|p q l m H _ IH]; [constructor|]. cbn [rev]. apply Forall2_app; [exact IH|]. constructor; [exact H|constructor]. }
    unfold last_with. induction G as [|p q a b H _ IH]; [constructor|]. cbn [find]. rewrite <- (HW _ _ H). destruct (str_eqb (p_key p) k); [now constructor|exact IH].
  Qed.
  Lemma filter_W : forall (W : property -> property -> Prop) k l m, (forall p q, W p q -> p_key p = p_key q) -> Forall2 W l m ->
    Forall2 W (filter (fun p => str_eqb (p_key p) k) l) (filter (fun p => str_eqb (p_key p) k) m).
  Proof.
    intros W k l m HW F. induction F as [|p q a b H _ IH]; [constructor|]. cbn [filter]. rewrite <- (HW _ _ H). destruct (str_eqb (p_key p) k); [now constructor|exact IH].
  Qed.
  Lemma flat_rel : forall {A B} (R : A -> A -> Prop) (S' : B -> B -> Prop) (f : A -> list B), (forall a b, R a b -> Forall2 S' (f a) (f b)) ->
    forall l m, Forall2 R l m -> Forall2 S' (flat_map f l) (flat_map f m).
  Proof. intros A B R S' f H l m F. induction F; [constructor|]. cbn [flat_map]. apply Forall2_app; auto. Qed.
  Theorem calls_rel : forall (W : property -> property -> Prop), (forall p q, W p q -> p_key p = p_key q) ->
    forall l m i j, Forall2 (call_rel W) l m -> inner_rel W i j -> inner_rel W (run_calls l i) (run_calls m j).
  Proof.
    intros W HW l m i j F R. inversion R as [? ? R1 R2 R3]; subst. constructor.
    - intros k. rewrite !get_calls. assert (G : opt_rel W (last_with k (flat_map sets l)) (last_with k (flat_map sets m))).
      { apply last_with_W; [exact HW|]. apply (flat_rel (call_rel W)); [|exact F]. intros a b H. apply H. }
      destruct G; [apply R1|now constructor].
    - intros k. rewrite !multi_calls. assert (G : Forall2 W (filter (fun q => str_eqb (p_key q) k) (flat_map multis l)) (filter (fun q => str_eqb (p_key q) k) (flat_map multis m))).
      { apply filter_W; [exact HW|]. apply (flat_rel (call_rel W)); [|exact F]. intros a b H. apply H. }
      destruct (R2 k) as [|a b E]; cbn [opt_app].
      + destruct G; constructor. now constructor.
      + constructor. now apply Forall2_app.
    - rewrite !comps_calls. apply Forall2_app; [exact R3|]. apply (flat_rel (call_rel W)); [|exact F]. intros a b H. apply H.
  Qed.
  Lemma inner_rel_refl : forall (W : property -> property -> Prop), (forall p, W p p) -> forall i, inner_rel W i i.
  Proof.
    intros W H. assert (A : forall l, Forall2 W l l) by (induction l; constructor; auto). induction i as [ps ms cs IH] using inner_deep. constructor.
    - intros k. destruct (map_get k _); constructor; auto.
    - intros k. destruct (map_get k _); constructor; auto.
    - cbn [i_comps]. induction IH as [|[n c] l P _ IHl]; constructor; [|exact IHl]. now split.
  Qed.
  Lemma call_rel_refl : forall (W : property -> property -> Prop), (forall p, W p p) -> forall c, call_rel W c c.
  Proof.
    intros W H c. assert (A : forall l, Forall2 W l l) by (induction l; constructor; auto). split; [apply A|]. split; [apply A|].
    induction (subs c); constructor; [|easy]. split; [easy|]. now apply inner_rel_refl.
  Qed.
  Lemma differ_refl : forall K p, differ_in K p p.
  Proof. intros K p. repeat split; easy. Qed.
  Lemma differ_new : forall (K : str -> Prop) k v w l, K k -> is_text (mk_property k v l) -> differ_in K (mk_property k v l) (mk_property k w l).
  Proof. intros K k v w l H T. split; [easy|]. split; [easy|]. intros N. destruct N. now split. Qed.
End User.
