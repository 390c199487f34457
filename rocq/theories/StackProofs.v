(** The errors of the parser: proofs. *)
From Verif Require Import Str StrFacts Spec Fold ValueTypes Property Chrono DateTime Component Calendar Nom Parser ErrorText SpecDoc SpecItems SpecGrammar
  SpecError SpecStack ParserProofs TotalProofs ReadProofs AcceptProofs RejectProofs ItemProofs DocProofs GrammarProofs MessageProofs.
From Verif Require ErrorProofs.
From Coq Require Import ZifyBool ZifyNat ZifyN.

Scheme comp_stuck_at_m := Minimality for comp_stuck_at Sort Prop with body_stuck_at_m := Minimality for body_stuck_at Sort Prop.
Combined Scheme stuck_at_mutind from comp_stuck_at_m, body_stuck_at_m.
Scheme comp_fails_with_m := Minimality for comp_fails_with Sort Prop with body_fails_with_m := Minimality for body_fails_with Sort Prop.
Combined Scheme fails_with_mutind from comp_fails_with_m, body_fails_with_m.

Section Stacks.
  Context {U : Unicode}.
  Notation V := verror.

  Lemma stuck_forget : (forall i x, comp_stuck_at i x -> comp_stuck i) /\ (forall i x, body_stuck_at i x -> body_stuck i).
  Proof.
    apply (stuck_at_mutind U (fun i _ => comp_stuck i) (fun i _ => body_stuck i)); intros.
    - econstructor; eauto.
    - eapply bs_here; eauto.
    - eapply bs_comp; eauto.
    - eapply bs_prop; eauto.
    - eapply bs_begin; eauto.
  Qed.
  Lemma property_fails : forall i r, reserved_at i r -> property_p (E := V) i = IFail (property_stack i r).
  Proof.
    intros i r (w & x & W & -> & D).
    unfold property_p, context at 1, cut at 1, pmap at 1, pair at 1, pbind at 1 2. unfold alt2.
    unfold separated_pair at 1, pair at 1, pbind at 1 2. unfold cut at 1, context at 1, preceded at 1, pbind at 1.
    rewrite multispace0_white; [|easy|].
    - assert (property_key (E := V) r = IErr [(r, VNom KSatisfy)]) as ->; [|reflexivity].
      unfold property_key. destruct D as [->| ->]; rewrite ?starts_with_app, ?orb_true_r; reflexivity.
    - intros d u Q I. destruct D as [->| ->]; injection Q as <- _; cbn in I; intuition discriminate.
  Qed.
  Lemma reserved_place : forall i, reserved i -> exists r, reserved_at i r.
  Proof. intros i (w & x & W & [->| ->]); eexists; exists w, x; split; try split; eauto. Qed.
  Lemma reserved_forget : forall i r, reserved_at i r -> reserved i.
  Proof. intros i r (w & x & W & -> & [->| ->]); exists w, x; auto. Qed.
  Lemma end_errors : forall n i, no_break i ->
    match end_p (E := V) n i with
    | IFail e => exists ke j, map lower_ascii ke = lit "end:" /\ i = ke ++ j /\ ~ has_prefix n j /\ e = [(j, VNom KTag); (j, VContext "mismatching end")]
    | _ => True
    end.
  Proof.
    intros n i N. destruct (starts_with (lit "end:") (map lower_ascii i)) eqn:Q.
    - apply keyword_spec in Q as (ke & x & K & ->). destruct (starts_with n x) eqn:Q.
      + apply starts_with_spec in Q as [j ->]. destruct (after_breaks_ex j) as [r A]. now rewrite (end_read ke n j r) by easy.
      + unfold end_p, line.
        rewrite (line_separated_fail _ _ _ _ (add_context x "mismatching end" (from_kind x KTag)) (skips_none _ N)); [|unfold preceded, pbind; rewrite tag_no_case_ok by easy; unfold cut, context; now rewrite tag_err].
        exists ke, x. repeat (split; [easy|]). split; [|reflexivity]. intros [r ->]. now rewrite starts_with_app in Q.
    - destruct (end_line_err _ (cut (context "mismatching end" (tag n))) _ _ (skips_none (E := V) _ N) Q) as [e Er].
      unfold end_p. now rewrite Er.
  Qed.
  Lemma not_begin_error : forall f i, no_break i -> ~ begins i -> component (E := V) (S f) i = IErr [(i, VNom KTag)].
  Proof.
    intros f i N B. apply keyword_not in B. rewrite component_S. unfold pbind at 1, line.
    rewrite (line_separated_err _ _ i i [(i, VNom KTag)] (skips_none _ N)); [reflexivity|].
    unfold preceded, pbind, tag_no_case. change (map lower_ascii (lit "BEGIN:")) with (lit "begin:"). now rewrite B.
  Qed.

  Lemma body_errors : forall f,
    (forall i, no_break i -> match component (E := V) f i with
       | IErr e => ~ begins i /\ e = [(i, VNom KTag)] \/ exists x, comp_stuck_at i x /\ e = [(x, VNom KManyTill)]
       | IFail e => comp_fails_with i e | _ => True end) ->
    forall m n i, no_break i -> match many_till m (body_p (E := V) f) (end_p n) i with
      | IErr e => exists x, body_stuck_at i x /\ e = [(x, VNom KManyTill)]
      | IFail e => body_fails_with n i e
      | _ => True
      end.
  Proof.
    intros f Hf. induction m as [|m IH]; intros n i N; [easy|]. cbn [many_till]. pose proof (end_cases n i N (E := V)) as En.
    pose proof (end_errors n i N) as Er. destruct (end_p n i) as [r x|e|e|]; try easy.
    - unfold body_p at 1, cut, context, alt2.
      pose proof (separated_none _ (pmap (@inl pcomp pprop) (component (E := V) f)) i N) as S1.
      pose proof (separated_none _ (pmap (@inr pcomp pprop) (property_p (E := V))) i N) as S2.
      unfold pmap, pbind, pret in S1, S2. specialize (Hf i N). pose proof (component_sound (E := V) f i N) as Sd.
      destruct (component f i) as [r c|e1|e1|].
      + destruct S1 as (r' & A & S1). unfold pmap, pbind, pret. rewrite S1. clear S2.
        apply reads_shrink in Sd as H. destruct H as (_ & S & L & Nr). apply no_breaks_self in A; [subst r'|easy].
        replace (length r =? length i) with false by lia. specialize (IH n r Nr).
        destruct (many_till m _ _ r) as [r2 [l x]|e2|e2|]; try easy.
        * destruct IH as (x & B & ->). exists x. split; [|easy]. now apply (bsa_comp _ c r).
        * now apply (bfw_next_comp _ _ c r).
      + unfold pmap, pbind, pret. rewrite S1. destruct (property_p i) as [r p|e2|e2|] eqn:P.
        * destruct S2 as (r' & A & S2). rewrite S2.
          assert (I : item_reads i p r') by (exists r; split; [now apply (prop_reads_iff (E := V))|easy]).
          destruct (item_suffix _ _ _ I) as [S Nr]. specialize (IH n r' Nr).
          destruct (length r' =? length i) eqn:L.
          -- apply Nat.eqb_eq in L. apply suffix_same in L; [subst r'|easy]. exists i. split; [|reflexivity]. destruct Sd as [B|C]; [now apply (bsa_here _ p)|].
             apply reads_shrink in C. now destruct (begin_not_self _ _ C I).
          -- assert (r' <> i) by (intros ->; lia). destruct (many_till m _ _ r') as [r2 [l x]|e3|e3|]; try easy.
             ++ destruct IH as (x & B & ->). exists x. split; [|easy]. destruct Sd as [B'|C]; [now apply (bsa_prop _ p r')|now apply (bsa_begin _ p r')].
             ++ now apply (bfw_next_prop _ _ p r').
        * pose proof (ErrorProofs.property_error (E := V) i) as X. rewrite P in X. now destruct X.
        * rewrite S2. pose proof (ErrorProofs.property_error (E := V) i) as X. rewrite P in X.
          apply reserved_place in X as [r X]. rewrite (property_fails _ _ X) in P. injection P as <-. now apply bfw_prop.
        * now rewrite S2.
      + unfold pmap, pbind, pret. rewrite S1. now apply bfw_comp.
      + unfold pmap, pbind, pret. now rewrite S1.
    - destruct Er as (ke & j & K & -> & A & ->). now constructor.
  Qed.
  Lemma component_errors : forall f i, no_break i -> match component (E := V) f i with
    | IErr e => ~ begins i /\ e = [(i, VNom KTag)] \/ exists x, comp_stuck_at i x /\ e = [(x, VNom KManyTill)]
    | IFail e => comp_fails_with i e | _ => True end.
  Proof.
    induction f as [|f IH]; intros i N; [easy|].
    destruct (starts_with (lit "begin:") (map lower_ascii i)) eqn:Q.
    - apply keyword_spec in Q as (kb & x & K & ->). destruct (longest_name_ex x) as (n & j & -> & Nn & M).
      destruct (after_breaks_ex j) as [r A]. rewrite component_S. unfold pbind at 1. rewrite (begin_line kb n j r) by easy.
      unfold pbind at 1. destruct (after_suffix _ _ A) as [_ Nr]. pose proof (body_errors f IH (S (length r)) n r Nr) as B.
      pose proof (body_sound (E := V) f (component_sound f) (S (length r)) n r Nr) as B'.
      destruct (many_till _ _ _ r) as [r2 [l y]|e|e|]; try easy.
      + unfold pbind. assert (no_break r2) by now apply reads_shrink in B'. now rewrite lfs_none by easy.
      + right. destruct B as (x & B & ->). exists x. split; [|easy]. now apply (csa_comp _ _ _ r).
      + now apply (cfw_comp _ _ _ r).
    - apply keyword_not in Q. rewrite not_begin_error by easy. now left.
  Qed.

  Lemma NE : forall i n, no_break i -> ~ ends i -> exists e, end_p (E := V) n i = IErr e.
  Proof. intros i n N H. apply keyword_not in H. exact (end_line_err _ _ _ _ (skips_none _ N) H). Qed.
  Lemma BE : forall i, begins i -> ~ ends i.
  Proof. intros i (k & r & K & ->) H. apply keyword_spec in H. rewrite begin_not_end in H by easy. easy. Qed.
  Lemma CE : forall i f, no_break i -> ~ begins i \/ comp_stuck i -> length i < f -> exists e, component (E := V) f i = IErr e.
  Proof.
    intros i f N [B|C] L; [|now apply reads_complete]. destruct f; [lia|]. apply keyword_not in B.
    exact (component_not_begin f i i (skips_none _ N) B).
  Qed.
  Lemma BC : forall i f c r, no_break i -> no_break r -> component (E := V) f i = IOk r c -> body_p (E := V) f i = IOk r (inl c).
  Proof.
    intros i f c r N Nr H. unfold body_p, cut, context, alt2. rewrite (line_separated_ok _ _ i i r r (inl c)); [easy|now apply skips_none| |now apply skips_none].
    unfold pmap, pbind. now rewrite H.
  Qed.
  Lemma BP : forall i f p r, no_break i -> ~ begins i \/ comp_stuck i -> length i < f -> item_reads i p r -> body_p (E := V) f i = IOk r (inr p).
  Proof.
    intros i f p r N D L (j & P & A). destruct (CE i f N D L) as [e H]. apply (prop_reads_ok (E := V)) in P. unfold body_p, cut, context, alt2.
    rewrite (line_separated_err _ _ i i e (skips_none _ N)) by (unfold pmap, pbind; now rewrite H).
    rewrite (line_separated_ok _ _ i i j r (inr p)); [easy|now apply skips_none| |now apply skips_after]. unfold pmap, pbind. now rewrite P.
  Qed.

  Lemma stuck_complete :
    (forall i x, comp_stuck_at i x -> forall f, length i < f -> component (E := V) f i = IErr [(x, VNom KManyTill)]) /\
    (forall i x, body_stuck_at i x -> no_break i -> forall n f m, length i < f -> length i < m ->
       many_till m (body_p (E := V) f) (end_p n) i = IErr [(x, VNom KManyTill)]).
  Proof.
    apply (stuck_at_mutind U (fun i x => forall f, length i < f -> component (E := V) f i = IErr [(x, VNom KManyTill)])
      (fun i x => no_break i -> forall n f m, length i < f -> length i < m -> many_till m (body_p (E := V) f) (end_p n) i = IErr [(x, VNom KManyTill)])).
    - intros kb n i j x K N M A B IH [|f] L; [lia|]. destruct (after_suffix _ _ A) as [Sf Nj]. apply suffix_length in Sf.
      rewrite !app_length in L. assert (length kb > 0) by (destruct kb; [easy|cbn; lia]).
      rewrite component_S. unfold pbind at 1. rewrite (begin_line kb n i j) by easy. unfold pbind at 1.
      now rewrite (IH Nj n f (S (length j)) ltac:(lia) ltac:(lia)).
    - intros i p Ne Nb I N n f [|m] L L'; [lia|]. cbn [many_till]. destruct (NE i n N Ne) as [e ->].
      rewrite (BP i f p i N) by auto. now rewrite Nat.eqb_refl.
    - intros i c j x C B IH N n f [|m] L L'; [lia|]. cbn [many_till].
      destruct (proj1 reads_shrink _ _ _ C) as (Bi & Sf & Lj & Nj). destruct (NE i n N (BE _ Bi)) as [e ->].
      rewrite (BC i f c j N Nj (proj1 (reads_complete (E := V)) _ _ _ C f L)). replace (length j =? length i) with false by lia.
      now rewrite (IH Nj n f m ltac:(lia) ltac:(lia)).
    - intros i p j x Ne Nb I D B IH N n f [|m] L L'; [lia|]. cbn [many_till].
      destruct (NE i n N Ne) as [e ->]. destruct (item_suffix _ _ _ I) as [Sf Nj]. rewrite (BP i f p j N) by auto.
      assert (length j <> length i) by (intros Q; now apply D, suffix_same). apply suffix_length in Sf.
      replace (length j =? length i) with false by lia. now rewrite (IH Nj n f m ltac:(lia) ltac:(lia)).
    - intros i p j x C I B IH N n f [|m] L L'; [lia|]. cbn [many_till].
      assert (Bi : begins i) by now apply reads_shrink.
      destruct (NE i n N (BE _ Bi)) as [e ->]. destruct (item_suffix _ _ _ I) as [Sf Nj]. rewrite (BP i f p j N) by auto.
      assert (length j <> length i).
      { intros Q. apply suffix_same in Q; [subst j|easy]. now destruct (begin_not_self i p Bi). }
      apply suffix_length in Sf. replace (length j =? length i) with false by lia. now rewrite (IH Nj n f m ltac:(lia) ltac:(lia)).
  Qed.
  Lemma fails_with_complete :
    (forall i e, comp_fails_with i e -> begins i /\ forall f, length i < f -> component (E := V) f i = IFail e) /\
    (forall n i e, body_fails_with n i e -> no_break i -> forall f m, length i < f -> length i < m ->
       many_till m (body_p (E := V) f) (end_p n) i = IFail e).
  Proof.
    apply (fails_with_mutind U (fun i e => begins i /\ forall f, length i < f -> component (E := V) f i = IFail e)
      (fun n i e => no_break i -> forall f m, length i < f -> length i < m -> many_till m (body_p (E := V) f) (end_p n) i = IFail e)).
    - intros kb n i j e K N M A B IH. split; [now exists kb, (n ++ i)|]. intros [|f] L; [lia|].
      destruct (after_suffix _ _ A) as [Sf Nj]. apply suffix_length in Sf.
      rewrite !app_length in L. assert (length kb > 0) by (destruct kb; [easy|cbn; lia]).
      rewrite component_S. unfold pbind at 1. rewrite (begin_line kb n i j) by easy. unfold pbind at 1.
      now rewrite (IH Nj f (S (length j)) ltac:(lia) ltac:(lia)).
    - intros n ke i K H N f [|m] _ L; [lia|]. cbn [many_till]. unfold end_p at 1, line.
      rewrite (line_separated_fail _ _ _ _ [(i, VNom KTag); (i, VContext "mismatching end")] (skips_none _ N)); [reflexivity|].
      unfold preceded, pbind. rewrite tag_no_case_ok by easy. unfold cut, context. rewrite tag_err; [reflexivity|].
      destruct (starts_with n i) eqn:Q; [|easy]. apply starts_with_spec in Q as [r ->]. destruct H. now exists r.
    - intros n i e C [B IH] N f [|m] L L'; [lia|]. cbn [many_till]. destruct (NE i n N (BE _ B)) as [e0 ->].
      unfold body_p at 1, cut, context, alt2.
      rewrite (line_separated_fail _ _ i i e (skips_none _ N)); [reflexivity|]. unfold pmap, pbind. now rewrite (IH f L).
    - intros n i r Ne D R N f [|m] L L'; [lia|]. cbn [many_till]. destruct (NE i n N Ne) as [e ->].
      destruct (CE i f N D L) as [e' H]. unfold body_p at 1, cut, context, alt2.
      rewrite (line_separated_err _ _ i i e' (skips_none _ N)) by (unfold pmap, pbind; now rewrite H).
      rewrite (line_separated_fail _ _ i i (property_stack i r) (skips_none _ N)) by (unfold pmap, pbind; now rewrite (property_fails _ _ R)). reflexivity.
    - intros n i c j e C B IH N f [|m] L L'; [lia|]. cbn [many_till].
      destruct (proj1 reads_shrink _ _ _ C) as (Bi & Sf & Lj & Nj). destruct (NE i n N (BE _ Bi)) as [e0 ->].
      rewrite (BC i f c j N Nj (proj1 (reads_complete (E := V)) _ _ _ C f L)). replace (length j =? length i) with false by lia.
      now rewrite (IH Nj f m ltac:(lia) ltac:(lia)).
    - intros n i p j e Ne D I Nj' B IH N f [|m] L L'; [lia|]. cbn [many_till]. destruct (NE i n N Ne) as [e0 ->].
      destruct (item_suffix _ _ _ I) as [Sf Nj]. rewrite (BP i f p j N) by auto.
      assert (length j <> length i) by (intros Q; now apply Nj', suffix_same). apply suffix_length in Sf.
      replace (length j =? length i) with false by lia. now rewrite (IH Nj f m ltac:(lia) ltac:(lia)).
  Qed.

  (** ** Whole texts *)
  Lemma component_fail : forall i e, component_p (E := V) i = IFail e <-> text_fails_with i e.
  Proof.
    intros i e. unfold component_p. split.
    - intros H. destruct (after_breaks_ex i) as [j A]. rewrite (component_skips _ i j A) in H. destruct (after_suffix _ _ A) as [_ N].
      pose proof (component_errors (S (length i)) j N) as S. rewrite H in S. now exists j.
    - intros (j & A & C). rewrite (component_skips _ i j A). apply fails_with_complete; [easy|].
      apply after_suffix in A as [A _]. apply suffix_length in A. lia.
  Qed.
  Lemma component_err : forall i e, component_p (E := V) i = IErr e <-> text_none_with i e.
  Proof.
    intros i e. unfold component_p. split.
    - intros H. destruct (after_breaks_ex i) as [j A]. rewrite (component_skips _ i j A) in H. destruct (after_suffix _ _ A) as [_ N].
      pose proof (component_errors (S (length i)) j N) as S. rewrite H in S. now exists j.
    - intros (j & A & D). rewrite (component_skips _ i j A). destruct (after_suffix _ _ A) as [Sf N]. destruct D as [[B ->]|(x & C & ->)].
      + now apply not_begin_error.
      + apply stuck_complete; [easy|]. apply suffix_length in Sf. lia.
  Qed.
  Lemma components_fail : forall i e, read_components i = Err e <-> text_fails_with i e.
  Proof.
    intros i e. rewrite <- component_fail. unfold read_components. rewrite components_read.
    destruct (component_p i) as [[|c r] c'|e'|e'|]; cbn [finish]; split; try easy; intros H; now injection H as ->.
  Qed.
  Lemma calendar_fail : forall i e, read_calendar i = Err e <-> text_fails_with i e.
  Proof.
    intros i e. rewrite <- components_fail. unfold read_calendar. fold (read_components i).
    destruct (read_components i); cbn [rmap]; split; try easy; intros H; now injection H as ->.
  Qed.
  Lemma read_component_fail : forall i e, read_component i = Err e <-> text_fails_with i e \/ text_none_with i e.
  Proof.
    intros i e. rewrite <- component_fail, <- component_err. unfold read_component.
    destruct (component_p i) as [r c'|e'|e'|]; cbn [finish]; split; try easy; try (intros [H|H]; easy).
    - intros H; injection H as ->. now right.
    - intros [H|H]; [easy|]. now injection H as ->.
    - intros H; injection H as ->. now left.
    - intros [H|H]; [|easy]. now injection H as ->.
  Qed.
  Lemma property_fail : forall i e, read_property i = Err e <-> exists r, reserved_at i r /\ e = property_stack i r.
  Proof.
    intros i e. unfold read_property. split.
    - intros H. pose proof (ErrorProofs.property_error (E := V) i) as X. destruct (property_p i) as [r p|e2|e2|] eqn:P; try easy; try (now destruct X).
      injection H as ->. apply reserved_place in X as [r X]. exists r. split; [easy|]. rewrite (property_fails _ _ X) in P. now injection P as <-.
    - intros (r & R & ->). now rewrite (property_fails _ _ R).
  Qed.
  Lemma nf_pair : ErrorProofs.no_fail (pair_parameter (E := V)).
  Proof.
    apply ErrorProofs.nf_map. repeat (apply ErrorProofs.nf_bind; [|intros ?]); try apply ErrorProofs.nf_tag; try apply ErrorProofs.nf_take_while; try apply ErrorProofs.nf_ret.
    apply ErrorProofs.nf_opt, ErrorProofs.nf_param_value.
  Qed.
  Lemma nf_base : ErrorProofs.no_fail (base_parameter (E := V)).
  Proof.
    apply ErrorProofs.nf_map. repeat (apply ErrorProofs.nf_bind; [|intros ?]); try apply ErrorProofs.nf_tag; try apply ErrorProofs.nf_take_while; try apply ErrorProofs.nf_ret.
    apply ErrorProofs.nf_opt, ErrorProofs.nf_bind; [apply ErrorProofs.nf_tag|]. intros _. apply ErrorProofs.nf_param_value.
  Qed.
  Lemma parameter_fail : forall i e, read_parameter i = Err e <-> ~ has_prefix [SEMI] i /\ e = [(i, VNom KTag); (i, VNom KAlt)].
  Proof.
    intros i e. unfold read_parameter, parameter_p, alt2.
    destruct (starts_with [SEMI] i) eqn:Q.
    - split.
      + intros H. exfalso. apply starts_with_spec in Q as [r ->].
        assert (X : forall e, base_parameter (E := V) ([SEMI] ++ r) <> IErr e).
        { unfold base_parameter, pmap at 1, pair at 1, pbind at 1 2, preceded at 1, pbind at 1, pair at 1, pbind at 1.
          rewrite tag_ok. unfold pbind at 1, space0 at 1, take_while at 1. destruct (span _ r) as [a b]. unfold pret at 1.
          unfold valid_key_sequence, take_while. destruct (span is_key_char b) as [k s]. unfold pbind at 1, pmap at 1, pbind at 1, opt.
          now destruct (preceded (tag [EQUALS]) param_value s). }
        destruct (pair_parameter ([SEMI] ++ r)) as [r1 v|e1|e1|] eqn:P; try easy.
        * destruct (base_parameter ([SEMI] ++ r)) as [r2 v|e2|e2|] eqn:B; try easy; [now destruct (X e2)|now destruct (nf_base _ _ B)].
        * now destruct (nf_pair _ _ P).
      + intros [H _]. apply starts_with_spec in Q as [r ->]. destruct H. now exists r.
    - assert (T : forall B (f : str * str -> parser V B), pbind (pair (tag [SEMI]) space0) f i = IErr [(i, VNom KTag)]).
      { intros B f. unfold pbind at 1, pair, pbind at 1. now rewrite tag_err. }
      assert (pair_parameter (E := V) i = IErr [(i, VNom KTag)]) as ->.
      { unfold pair_parameter, pmap at 1, pbind at 1, preceded. now rewrite T. }
      assert (base_parameter (E := V) i = IErr [(i, VNom KTag)]) as ->.
      { unfold base_parameter, pmap at 1, pair at 1, pbind at 1 2, preceded at 1. now rewrite T. }
      cbn [finish append_err PErr_verbose app]. split.
      + intros H. injection H as <-. split; [|easy]. intros [r ->]. now rewrite starts_with_app in Q.
      + now intros [_ ->].
  Qed.
End Stacks.

(** ** The first entry only *)
Definition innermost (e : verror) (f : str * ekind) : Prop := exists t, e = (fst f, VNom (snd f)) :: t.
Lemma simple_fail : forall {U : Unicode} i x k, read_calendar_simple i = Err (x, k) <-> exists t, text_fails_with i ((x, VNom k) :: t).
Proof.
  intros U i x k.
  pose proof (ErrorProofs.ag_components innermost
    ltac:(now intros j l; exists [])
    ltac:(intros j l e f [t ->]; cbn; now eexists) ltac:(intros j l e f [t ->]; cbn; now eexists) i) as A.
  unfold read_calendar_simple. assert (R : forall e, text_fails_with i e <-> finish (components_p (E := verror) i) = Err e).
  { intros e. symmetry. apply components_fail. }
  destruct (components_p (E := verror) i) as [r l|e|e|], (components_p (E := str * ekind) i) as [r' l'|e'|e'|]; cbn in A |- *; try easy.
  - split; [easy|]. now intros [t T]; apply R in T.
  - destruct A as [t ->]. split.
    + intros H. injection H as ->. exists t. now apply R.
    + intros [u T]. apply R in T. destruct e' as [y l]. cbn in T. now injection T as -> -> ->.
  - destruct A as [t ->]. split.
    + intros H. injection H as ->. exists t. now apply R.
    + intros [u T]. apply R in T. destruct e' as [y l]. cbn in T. now injection T as -> -> ->.
  - split; [easy|]. now intros [t T]; apply R in T.
Qed.

(** ** One message *)
Definition val (s : str) : nat := fold_left (fun a c => 10 * a + (N.to_nat c - 48)) s 0.
Lemma val_last : forall s c, val (s ++ [c]) = 10 * val s + (N.to_nat c - 48).
Proof. intros s c. unfold val. now rewrite fold_left_app. Qed.
Lemma val_one : forall s s', Forall (fun c => (48 <= c <= 57)%N) s -> Forall (fun c => (48 <= c <= 57)%N) s' ->
  hd 0%N s <> 48%N -> hd 0%N s' <> 48%N -> val s = val s' -> s = s'.
Proof.
  assert (Z : forall s, Forall (fun c => (48 <= c <= 57)%N) s -> hd 0%N s <> 48%N -> s <> [] -> 0 < val s).
  { induction s as [|c s IH] using rev_ind; intros D H NE; [easy|]. rewrite val_last. apply Forall_app in D as [D1 D2]. inversion D2; subst.
    destruct s as [|d s]; [cbn in H; change (val []) with 0; lia|]. specialize (IH D1 H ltac:(easy)). lia. }
  induction s as [|c s IH] using rev_ind; intros s' D D' H H' E.
  - destruct s' as [|c' s']; [easy|]. specialize (Z _ D' H' ltac:(easy)). change (val []) with 0 in E. lia.
  - destruct s' as [|d s' _] using rev_ind; [specialize (Z _ D H ltac:(now destruct s)); change (val []) with 0 in E; lia|].
    rewrite !val_last in E. apply Forall_app in D as [D1 D2]. apply Forall_app in D' as [D1' D2']. inversion D2; inversion D2'; subst.
    assert (c = d) as <- by lia. f_equal. apply IH; try easy; [| |lia].
    + destruct s; [cbn; lia|easy].
    + destruct s'; [cbn; lia|easy].
Qed.
Lemma number_one : forall s s' n, number s n -> number s' n -> s = s'.
Proof.
  assert (G : forall s n, number s n -> (n = 0 /\ s = [48%N]) \/ (hd 0%N s <> 48%N /\ n <> 0)).
  { intros s n (D & NE & Z & W). fold (val s) in W. destruct (N.eq_dec (hd 0%N s) 48) as [Q|Q].
    - left. rewrite (Z Q) in W. split; [now rewrite <- W|auto].
    - right. split; [easy|]. intros ->. apply NE. apply (val_one s [] D); try easy. }
  intros s s' n H H'. destruct (G _ _ H) as [[-> ->]|[Q Q']], (G _ _ H') as [[? ->]|[P P']]; try easy.
  destruct H as (D & _ & _ & W), H' as (D' & _ & _ & W'). apply (val_one s s' D D' Q P). unfold val. congruence.
Qed.
Lemma entries_one : forall w i k e t, entries w i k e t -> forall t', entries w i k e t' -> t = t'.
Proof.
  intros w i k e t H. induction H as [k|k sub v e row col l nk nrow text P N1 N2 M IH]; intros t' H'; inversion H' as [|? ? ? ? row' col' l' nk' nrow' text' P' N1' N2' M']; subst; [easy|].
  destruct (position_unique _ _ _ _ _ _ _ _ _ P P') as (<- & <- & <-). apply (number_one _ _ _ N1) in N1' as ->. apply (number_one _ _ _ N2) in N2' as ->.
  now rewrite (IH _ M').
Qed.
Lemma entries_empty_one : forall k e t, entries_empty k e t -> forall t', entries_empty k e t' -> t = t'.
Proof.
  intros k e t H. induction H as [k|k sub v e nk text N1 M IH]; intros t' H'; inversion H' as [|? ? ? ? nk' text' N1' M']; subst; [easy|].
  apply (number_one _ _ _ N1) in N1' as ->. now rewrite (IH _ M').
Qed.
Lemma message_one : forall w i e m m', message_for w i e m -> message_for w i e m' -> m = m'.
Proof.
  intros w i e m m' (t & -> & A & B) (t' & -> & A' & B'). f_equal. destruct i as [|c i].
  - now apply (entries_empty_one 0 e); [apply B|apply B'].
  - now apply (entries_one w (c :: i) 0 e); [apply A|apply A'].
Qed.
Lemma reported_iff : forall A i (r : result A verror) r' (fails : verror -> Prop), reported octets i r r' -> answered r' ->
  (forall e, r = Err e <-> fails e) -> forall m, r' = Err m <-> exists e, fails e /\ message_for octets i e m.
Proof.
  intros A i r r' fails (R1 & R2) An' F m. split.
  - intros H. apply R2 in H as (e & E & M). exists e. split; [now apply F|easy].
  - intros (e & H & M). apply F in H. subst r. destruct r' as [a|m'|]; [discriminate (proj1 (R1 a) eq_refl)| |destruct An' as [[? ?]|[? ?]]; discriminate].
    destruct (R2 m' eq_refl) as (e' & E & M'). injection E as <-. now rewrite (message_one _ _ _ _ _ M M').
Qed.

Lemma answered_map_err : forall A E F (f : E -> F) (r : result A E), answered r -> answered (rmap_err f r).
Proof. intros A E F f r [[a ->]|[e ->]]; [left|right]; cbn; eauto. Qed.
Lemma answered_map : forall A B E (f : A -> B) (r : result A E), answered r -> answered (rmap f r).
Proof. intros A B E f r [[a ->]|[e ->]]; [left|right]; cbn; eauto. Qed.
Lemma err_map : forall A B E (f : A -> B) (r : result A E) e, rmap f r = Err e <-> r = Err e.
Proof. intros A B E f [a|e'|] e; cbn; split; try easy; intros H; now injection H as ->. Qed.
Section Entries.
  Context {U : Unicode}.
  Lemma stacks : forall i e,
    (read_calendar i = Err e <-> text_fails_with i e)
    /\ (read_components i = Err e <-> text_fails_with i e)
    /\ (read_component i = Err e <-> text_fails_with i e \/ text_none_with i e)
    /\ (read_property i = Err e <-> exists r, reserved_at i r /\ e = property_stack i r)
    /\ (read_parameter i = Err e <-> ~ has_prefix [SEMI] i /\ e = [(i, VNom KTag); (i, VNom KAlt)])
    /\ (calendar_from_str i = Err e <-> text_fails_with (unfold i) e)
    /\ (cc_from_str i = Err e <-> text_fails_with (unfold i) e \/ text_none_with (unfold i) e)
    /\ (property_from_str i = Err e <-> exists r, reserved_at i r /\ e = property_stack i r).
  Proof.
    intros i e. split; [apply calendar_fail|]. split; [apply components_fail|]. split; [apply read_component_fail|]. split; [apply property_fail|].
    split; [apply parameter_fail|]. unfold calendar_from_str, cc_from_str, property_from_str. rewrite !err_map.
    split; [apply calendar_fail|]. split; [apply read_component_fail|apply property_fail].
  Qed.
  Lemma stack_messages : forall i m,
    (read_calendar_s i = Err m <-> exists e, text_fails_with i e /\ message_for octets i e m)
    /\ (read_components_s i = Err m <-> exists e, text_fails_with i e /\ message_for octets i e m)
    /\ (read_component_s i = Err m <-> exists e, (text_fails_with i e \/ text_none_with i e) /\ message_for octets i e m)
    /\ (read_property_s i = Err m <-> exists e, (exists r, reserved_at i r /\ e = property_stack i r) /\ message_for octets i e m)
    /\ (read_parameter_s i = Err m <-> exists e, (~ has_prefix [SEMI] i /\ e = [(i, VNom KTag); (i, VNom KAlt)]) /\ message_for octets i e m)
    /\ (calendar_from_str_s i = Err m <-> exists e, text_fails_with (unfold i) e /\ message_for octets (unfold i) e m)
    /\ (cc_from_str_s i = Err m <-> exists e, (text_fails_with (unfold i) e \/ text_none_with (unfold i) e) /\ message_for octets (unfold i) e m)
    /\ (property_from_str_s i = Err m <-> exists e, (exists r, reserved_at i r /\ e = property_stack i r) /\ message_for octets i e m).
  Proof.
    intros i m. destruct (messages i) as (M1 & M2 & M3 & M4 & M5 & M6 & M7 & M8).
    destruct (parser_answers i) as (A1 & A2 & _ & A3 & A4 & A5 & A6 & A7 & A8).
    destruct (parser_answers (unfold i)) as (B1 & _ & _ & B3 & _).
    split; [|split; [|split; [|split; [|split; [|split; [|split]]]]]].
    - eapply reported_iff; [exact M1|now apply answered_map_err|]. intros e. apply stacks.
    - eapply reported_iff; [exact M2|now apply answered_map_err|]. intros e. apply stacks.
    - eapply reported_iff; [exact M3|now apply answered_map_err|]. intros e. apply stacks.
    - eapply reported_iff; [exact M4|now apply answered_map_err|]. intros e. apply stacks.
    - apply (reported_iff _ _ _ _ (fun e => ~ has_prefix [SEMI] i /\ e = [(i, VNom KTag); (i, VNom KAlt)]) M5); [now apply answered_map_err|]. intros e. apply stacks.
    - eapply reported_iff; [exact M6|now apply answered_map, answered_map_err|]. intros e. apply stacks.
    - eapply reported_iff; [exact M7|now apply answered_map, answered_map_err|]. intros e. apply stacks.
    - eapply reported_iff; [exact M8|now apply answered_map, answered_map_err|]. intros e. apply stacks.
  Qed.
End Entries.
