From Verif Require Import Str StrFacts Spec ValueTypes Property Chrono DateTime Component Calendar Nom Parser SpecDoc SpecItems SpecGrammar
  ParserProofs TotalProofs ReadProofs AcceptProofs RejectProofs ItemProofs DocProofs GrammarProofs Cost SpecCost.
From Verif Require ErrorProofs.
From Coq Require Import ZifyBool ZifyNat ZifyN.

Section Counting.
  Context {U : Unicode} {E : Type} {PE : PErr E}.

  (** *** Counting changes nothing. *)
  Definition erases {A} (c : cparser E A) (p : parser E A) : Prop := forall i, snd (c i) = p i.
  Lemma erases_free : forall A (p : parser E A), erases (free p) p.
  Proof. easy. Qed.
  Lemma erases_tick : forall A c (p : parser E A), erases c p -> erases (tick c) p.
  Proof. intros A c p H i. apply H. Qed.
  Lemma erases_bind : forall A B c (p : parser E A) f (g : A -> parser E B), erases c p -> (forall a, erases (f a) (g a)) ->
    erases (cbind c f) (pbind p g).
  Proof.
    intros A B c p f g H G i. unfold cbind, pbind. specialize (H i). destruct (c i) as [n x]. cbn [snd] in H. subst x.
    destruct (p i) as [r a|e|e|]; try easy. cbn [snd]. apply G.
  Qed.
  Lemma erases_alt2 : forall A c (p : parser E A) d q, erases c p -> erases d q -> erases (calt2 c d) (alt2 p q).
  Proof.
    intros A c p d q H G i. unfold calt2, alt2. specialize (H i). destruct (c i) as [n x]. cbn [snd] in H. subst x.
    destruct (p i) as [r a|e|e|]; try easy. specialize (G i). destruct (d i) as [m y]. cbn [snd] in *. subst y. now destruct (q i).
  Qed.
  Lemma erases_cut : forall A c (p : parser E A), erases c p -> erases (ccut c) (cut p).
  Proof. intros A c p H i. unfold ccut, cut. specialize (H i). destruct (c i) as [n x]. cbn [snd] in *. subst x. now destruct (p i) as [[]| | |]. Qed.
  Lemma erases_context : forall A w c (p : parser E A), erases c p -> erases (ccontext w c) (context w p).
  Proof. intros A w c p H i. unfold ccontext, context. specialize (H i). destruct (c i) as [n x]. cbn [snd] in *. subst x. now destruct (p i) as [[]| | |]. Qed.
  Lemma erases_all : forall A c (p : parser E A), erases c p -> erases (call_consuming c) (all_consuming p).
  Proof. intros A c p H i. unfold call_consuming, all_consuming. specialize (H i). destruct (c i) as [n x]. cbn [snd] in *. subst x. now destruct (p i) as [[]| | |]. Qed.
  Lemma erases_many0 : forall A c (p : parser E A) f, erases c p -> erases (cmany0 f c) (many0 f p).
  Proof.
    intros A c p f H. induction f as [|f IH]; intros i; [easy|]. cbn [cmany0 many0]. specialize (H i). destruct (c i) as [n x].
    cbn [snd] in H. subst x. destruct (p i) as [r a|e|e|]; try easy. destruct (_ =? _); [easy|]. specialize (IH r).
    destruct (cmany0 f c r) as [m y]. cbn [snd] in *. subst y. now destruct (many0 f p r).
  Qed.
  Lemma erases_till : forall A B c (p : parser E A) (g : parser E B) f, erases c p -> erases (cmany_till f c g) (many_till f p g).
  Proof.
    intros A B c p g f H. induction f as [|f IH]; intros i; [easy|]. cbn [cmany_till many_till]. destruct (g i); try easy.
    specialize (H i). destruct (c i) as [n x].
    cbn [snd] in H. subst x. destruct (p i) as [r a|e'|e'|]; try easy. destruct (_ =? _); [easy|]. specialize (IH r).
    destruct (cmany_till f c g r) as [m y]. cbn [snd] in *. subst y. now destruct (many_till f p g r) as [? []|?|?|].
  Qed.
  Lemma erases_map : forall A B (f : A -> B) c (p : parser E A), erases c p -> erases (cmap f c) (pmap f p).
  Proof. intros A B f c p H. apply erases_bind; [easy|]. easy. Qed.
  Lemma erases_separated : forall A c (p : parser E A), erases c p -> erases (cline_separated c) (line_separated p).
  Proof.
    intros A c p H. unfold cline_separated, line_separated, delimited. apply erases_bind; [easy|]. intros _. apply erases_bind; [easy|].
    intros a. apply erases_bind; easy.
  Qed.
  Lemma erases_component : forall f, erases (ccomponent f) (component (E := E) f).
  Proof.
    induction f as [|f IH]; cbn [ccomponent component]; apply erases_tick; [easy|]. apply erases_bind; [easy|]. intros n.
    apply erases_bind.
    - intros i. apply erases_till, erases_cut, erases_context, erases_alt2; apply erases_separated; [now apply erases_map|easy].
    - intros [l x]. apply erases_bind; easy.
  Qed.
  Lemma erases_components : erases ccomponents_p (components_p (E := E)).
  Proof. intros i. apply erases_many0, erases_all. intros j. apply erases_component. Qed.

  (** *** The equations of the counts. *)
  Definition cbody (f : nat) : cparser E child :=
    ccut (ccontext "component" (calt2 (cline_separated (cmap inl (ccomponent f))) (cline_separated (free (pmap inr property_p))))).
  Lemma ccomponent_begin : forall f kb n i j, map lower_ascii kb = lit "begin:" -> name_ok n -> name_ends i -> after_breaks i j ->
    fst (ccomponent (E := E) (S f) (kb ++ n ++ i)) = S (fst (cmany_till (S (length j)) (cbody f) (end_p (E := E) n) j)).
  Proof.
    intros f kb n i j K Nn M A. cbn [ccomponent]. unfold tick at 1. cbn [fst]. f_equal. unfold cbind at 1, free at 1.
    rewrite (begin_line kb n i j) by easy. cbn [fst snd Nat.add]. unfold cbind at 1. fold (cbody f). fold (end_p (E := E) n).
    destruct (cmany_till _ _ _ j) as [m y]. cbn [fst]. destruct y as [r [l x]|e|e|]; try easy. cbn [fst].
    unfold cbind, free. cbn [fst]. destruct (many0 _ _ r); cbn [fst]; lia.
  Qed.
  Lemma ccomponent_not_begin : forall f i j, skips (E := E) i j -> ~ begins j -> fst (ccomponent (E := E) (S f) i) = 1.
  Proof.
    intros f i j S B. apply keyword_not in B. cbn [ccomponent]. unfold tick. cbn [fst]. unfold cbind at 1, free at 1, line.
    rewrite (line_separated_err _ _ _ _ (from_kind j KTag) S); [easy|]. unfold preceded, pbind. now rewrite tag_no_case_err.
  Qed.
  Lemma cbody_fst : forall f i, no_break i -> fst (cbody f i) = fst (ccomponent (E := E) f i).
  Proof.
    intros f i N. destruct (skips_none (E := E) i N) as [l S]. unfold cbody, ccut, ccontext, calt2.
    assert (X : fst (cline_separated (cmap (@inl pcomp pprop) (ccomponent f)) i) = fst (ccomponent (E := E) f i)).
    { unfold cline_separated, cbind, cmap, cbind, free. rewrite S. cbn [fst snd Nat.add]. destruct (ccomponent f i) as [n x]. cbn [fst].
      destruct x as [r a|e|e|]; try easy. cbn [fst snd pret]. destruct (many0 _ _ r); cbn [fst]; lia. }
    assert (Y : fst (cline_separated (free (pmap (@inr pcomp pprop) property_p)) i) = 0).
    { unfold cline_separated, cbind, free. rewrite S. cbn [fst snd Nat.add]. destruct (pmap _ _ i) as [r a|e|e|]; try easy.
      cbn [fst snd]. destruct (many0 _ _ r); cbn [fst]; lia. }
    destruct (cline_separated (cmap _ _) i) as [n x]. cbn [fst] in X. subst n.
    destruct (cline_separated (free _) i) as [m y]. cbn [fst] in Y. subst m. destruct x; cbn [fst]; lia.
  Qed.
  Lemma cbody_snd : forall f, erases (cbody f) (body_p (E := E) f).
  Proof. intros f. apply erases_cut, erases_context, erases_alt2; apply erases_separated; [apply erases_map, erases_component|easy]. Qed.
  (** A step of the inside of a component. *)
  Lemma ctill_step : forall f m n i, no_break i ->
    fst (cmany_till (S m) (cbody f) (end_p (E := E) n) i) =
    match end_p (E := E) n i with
    | IErr _ => fst (ccomponent (E := E) f i) + match body_p (E := E) f i with
        | IOk r _ => if length r =? length i then 0 else fst (cmany_till m (cbody f) (end_p (E := E) n) r)
        | _ => 0 end
    | _ => 0 end.
  Proof.
    intros f m n i N. cbn [cmany_till]. destruct (end_p n i); try easy. rewrite <- (cbody_fst f i N), <- (cbody_snd f i).
    destruct (cbody f i) as [k x]. cbn [fst snd]. destruct x as [r a|x|x|]; cbn [fst]; try lia. destruct (_ =? _); cbn [fst]; try lia.
    destruct (cmany_till m _ _ r); cbn [fst]; lia.
  Qed.

  (** *** The bound. *)
  Definition budget (i : str) : nat := 2 ^ soft_begins i * (length i + 1).
  Lemma soft_suffix : forall r i, suffix r i -> soft_begins r <= soft_begins i.
  Proof. intros r i [p ->]. induction p as [|c p IH]; [easy|]. cbn [app soft_begins]. lia. Qed.
  Lemma soft_shorter : forall r i, suffix r i -> length r < length i -> soft_begin i = true -> S (soft_begins r) <= soft_begins i.
  Proof.
    intros r i [[|c p] ->] L S; [cbn in L; lia|]. cbn [app] in *. cbn [soft_begins]. rewrite S.
    pose proof (soft_suffix r (p ++ r) (ex_intro _ p eq_refl)). lia.
  Qed.
  Lemma pow_pos : forall n, 1 <= 2 ^ n.
  Proof. intros n. pose proof (Nat.pow_nonzero 2 n). lia. Qed.
  Lemma budget_le : forall r i, suffix r i -> budget r <= budget i.
  Proof.
    intros r i S. unfold budget. apply Nat.mul_le_mono; [apply Nat.pow_le_mono_r; [lia|now apply soft_suffix]|].
    apply suffix_length in S. lia.
  Qed.
  Lemma budget_lt : forall r i, suffix r i -> length r < length i -> budget r + 1 <= budget i.
  Proof.
    intros r i S L. unfold budget. assert (2 ^ soft_begins r <= 2 ^ soft_begins i) by (apply Nat.pow_le_mono_r; [lia|now apply soft_suffix]).
    pose proof (pow_pos (soft_begins r)). nia.
  Qed.
  Lemma budget_pos : forall i, 1 <= budget i.
  Proof. intros i. unfold budget. pose proof (pow_pos (soft_begins i)). nia. Qed.
  Lemma budget_twice : forall r s i, suffix r i -> length r < length i -> suffix s i -> length s < length i -> soft_begin i = true ->
    budget r + 1 + budget s <= budget i.
  Proof.
    intros r s i S L S' L' B. unfold budget. pose proof (soft_shorter _ _ S L B). pose proof (soft_shorter _ _ S' L' B).
    destruct (soft_begins i) as [|k]; [lia|].
    assert (2 ^ soft_begins r <= 2 ^ k) by (apply Nat.pow_le_mono_r; lia).
    assert (2 ^ soft_begins s <= 2 ^ k) by (apply Nat.pow_le_mono_r; lia).
    pose proof (pow_pos (soft_begins r)). pose proof (pow_pos (soft_begins s)). cbn [Nat.pow]. nia.
  Qed.
  Definition within {A} (n : nat) (x : ires E A) (i : str) : Prop :=
    match x with IOk r _ => n + budget r <= budget i | _ => n <= budget i end.

  Lemma body_cases : forall f i, no_break i ->
    match component (E := E) f i with
    | IOk r c => length r < length i /\ suffix r i /\ no_break r /\ body_p (E := E) f i = IOk r (inl c)
    | IErr _ => (~ begins i \/ comp_stuck i) /\
        ((exists p r, item_reads i p r /\ body_p (E := E) f i = IOk r (inr p)) \/ reserved i /\ exists e, body_p (E := E) f i = IFail e)
    | IFail _ => exists e, body_p (E := E) f i = IFail e
    | IFuel => body_p (E := E) f i = IFuel
    end.
  Proof.
    intros f i N. pose proof (component_sound f i N) as C. unfold body_p, cut, context, alt2.
    pose proof (separated_none _ (pmap (@inl pcomp pprop) (component f)) i N) as S1.
    pose proof (separated_none _ (pmap (@inr pcomp pprop) (property_p)) i N) as S2.
    unfold pmap, pbind, pret in S1, S2 |- *. destruct (component f i) as [r c|e|e|].
    - destruct S1 as (r' & A & ->). apply reads_shrink in C as (_ & S & L & Nr). apply no_breaks_self in A; [now subst r'|easy].
    - rewrite S1. split; [easy|]. destruct (property_p i) as [r p|e2|e2|] eqn:P.
      + destruct S2 as (r' & A & ->). left. exists p, r'. split; [|easy]. exists r. split; [now apply prop_reads_iff|easy].
      + pose proof (ErrorProofs.property_error (E := E) i) as X. rewrite P in X. now destruct X.
      + rewrite S2. right. pose proof (ErrorProofs.property_error (E := E) i) as X. rewrite P in X. eauto.
      + pose proof (ErrorProofs.property_error (E := E) i) as X. rewrite P in X. now destruct X.
    - rewrite S1. eauto.
    - now rewrite S1.
  Qed.
  Lemma begins_hard : forall i, begins i -> soft_begin i = false -> reserved i.
  Proof.
    intros i B S. apply keyword_spec in B. unfold soft_begin in S. rewrite B in S. cbn [andb] in S. apply Bool.negb_false_iff in S.
    apply starts_with_spec in S as [r ->]. exists [], (COLON :: r). split; [constructor|]. now right.
  Qed.

  Lemma till_bound : forall f, (forall i, no_break i -> within (fst (ccomponent (E := E) f i)) (component (E := E) f i) i
      /\ (begins i -> fst (ccomponent (E := E) f i) = 1 \/
          exists r, suffix r i /\ length r < length i /\ fst (ccomponent (E := E) f i) <= 1 + budget r)) ->
    forall m n i, no_break i -> within (fst (cmany_till m (cbody f) (end_p (E := E) n) i)) (many_till m (body_p (E := E) f) (end_p n) i) i.
  Proof.
    intros f Hf. induction m as [|m IH]; intros n i N; [cbn; lia|]. rewrite ctill_step by easy. cbn [many_till].
    pose proof (end_cases (E := E) n i N) as En. destruct (end_p n i) as [r x|e|e|]; try (cbn; lia).
    - destruct En as (ke & j & _ & -> & A). apply after_suffix in A as [A _]. cbn [within Nat.add]. apply budget_le.
      eapply suffix_trans; [exact A|]. exists (ke ++ n). now rewrite <- app_assoc.
    - pose proof (body_cases f i N) as B. destruct (Hf i N) as [W K]. destruct (component f i) as [r c|e1|e1|].
      + destruct B as (L & S & Nr & ->). replace (_ =? _) with false by lia. specialize (IH n r Nr). cbn [within] in W.
        pose proof (budget_le _ _ S). destruct (many_till m _ _ r) as [s [l x]|x|x|]; cbn [within] in *; lia.
      + destruct B as [D [(p & r & I & ->)|[R [e2 ->]]]]; [|cbn [within] in *; lia].
        destruct (length r =? length i) eqn:L; [cbn [within] in *; lia|]. destruct (item_suffix _ _ _ I) as [S Nr].
        assert (length r < length i) by (apply suffix_length in S; lia). specialize (IH n r Nr).
        assert (X : fst (ccomponent (E := E) f i) + budget r <= budget i).
        { destruct D as [D|D].
          - assert (fst (ccomponent (E := E) f i) <= 1) as X.
            { destruct f as [|f]; [cbn; lia|]. now rewrite (ccomponent_not_begin f i i (skips_none _ N) D). }
            pose proof (budget_lt r i S ltac:(easy)). lia.
          - apply reads_shrink in D. destruct (soft_begin i) eqn:Sb.
            + destruct (K D) as [->|(s & S' & L' & M)]; [pose proof (budget_lt r i S ltac:(easy)); lia|].
              pose proof (budget_twice s r i S' L' S ltac:(easy) Sb). lia.
            + destruct I as (j & (R & _) & _). destruct R. now apply begins_hard. }
        destruct (many_till m _ _ r) as [s [l x]|x|x|]; cbn [within] in *; lia.
      + destruct B as [e2 ->]. cbn [within] in *; lia.
      + rewrite B. cbn [within] in *; lia.
  Qed.
  Lemma component_bound : forall f i, no_break i -> within (fst (ccomponent (E := E) f i)) (component (E := E) f i) i
      /\ (begins i -> fst (ccomponent (E := E) f i) = 1 \/
          exists r, suffix r i /\ length r < length i /\ fst (ccomponent (E := E) f i) <= 1 + budget r).
  Proof.
    induction f as [|f IH]; intros i N; [split; [cbn; pose proof (budget_pos i); lia|now left]|].
    destruct (starts_with (lit "begin:") (map lower_ascii i)) eqn:Q.
    - apply keyword_spec in Q as (kb & x & K & ->). destruct (longest_name_ex x) as (n & j & -> & Nn & M).
      destruct (after_breaks_ex j) as [r A]. rewrite (ccomponent_begin f kb n j r) by easy. rewrite component_S. unfold pbind at 1.
      rewrite (begin_line kb n j r) by easy. unfold pbind at 1.
      destruct (after_suffix _ _ A) as [Sf Nr]. pose proof (till_bound f IH (S (length r)) n r Nr) as B.
      pose proof (body_sound (E := E) f (component_sound f) (S (length r)) n r Nr) as B'.
      assert (S' : suffix r (kb ++ n ++ j)) by (destruct Sf as [b ->]; exists (kb ++ n ++ b); now rewrite <- !app_assoc).
      assert (L : length r < length (kb ++ n ++ j)).
      { apply suffix_length in Sf. rewrite !app_length. destruct kb; [easy|]. cbn [length]. lia. }
      pose proof (budget_lt _ _ S' L). split.
      + destruct (many_till _ _ _ r) as [r2 [l y]|e|e|]; cbn [within] in B |- *; try lia.
        assert (no_break r2) by now apply reads_shrink in B'. unfold pbind. rewrite lfs_none by easy. cbn [within pret]. lia.
      + intros _. right. exists r. split; [easy|]. split; [easy|].
        destruct (many_till _ _ _ r) as [r2 [l y]|e|e|]; cbn [within] in B; lia.
    - destruct (component_not_begin f i i (skips_none _ N) Q) as [e ->]. apply keyword_not in Q.
      rewrite (ccomponent_not_begin f i i (skips_none _ N) Q). pose proof (budget_pos i). split; [easy|now left].
  Qed.

  Lemma ccomponent_skips : forall f i j, after_breaks i j -> ccomponent (E := E) (S f) i = ccomponent (E := E) (S f) j.
  Proof.
    intros f i j A. cbn [ccomponent]. unfold tick.
    assert (X : forall B (g : str -> cparser E B), cbind (free (line (lit "BEGIN:") (valid_key_sequence (E := E)))) g i
                = cbind (free (line (lit "BEGIN:") valid_key_sequence)) g j); [|now rewrite X].
    intros B g. unfold cbind, free.
    assert (line (lit "BEGIN:") (valid_key_sequence (E := E)) i = line (lit "BEGIN:") valid_key_sequence j) as ->; [|easy].
    unfold line, line_separated, delimited, pbind. destruct (skips_after _ _ A) as [l ->].
    apply after_suffix in A as [_ N]. destruct (skips_none (E := E) _ N) as [l' ->]. easy.
  Qed.
  Lemma call_empty : exists e, ccomponent (E := E) (S (length (@nil N))) [] = (1, IErr e).
  Proof. now eexists. Qed.
  Lemma components_bound : forall i, fst (ccomponents_p (E := E) i) <= budget i.
  Proof.
    intros i. unfold ccomponents_p. cbn [cmany0]. unfold call_consuming at 1, ccomponent_p at 1.
    destruct (after_breaks_ex i) as [j A]. rewrite (ccomponent_skips (length i) i j A).
    apply after_suffix in A as [A N]. destruct (component_bound (S (length i)) j N) as [W _]. pose proof (budget_le _ _ A).
    rewrite <- (erases_component (S (length i)) j) in W. destruct (ccomponent (S (length i)) j) as [n x]. cbn [fst snd] in W.
    destruct x as [[|c r] a|e|e|]; cbn [within] in W; try (cbn [fst]; lia).
    destruct (_ =? _); [cbn [fst]; lia|]. change (budget []) with 1 in W.
    destruct (length i) as [|m]; [cbn; lia|]. cbn [cmany0]. unfold call_consuming at 1, ccomponent_p at 1.
    destruct call_empty as [e ->]. cbn [fst]. lia.
  Qed.

  (** *** Lines [begin:b] only. *)
  Lemma only_item : forall k, prop_reads (begins_only (S k)) (mk_pprop (lit "begin") (lit "b") []) (begins_only k).
  Proof.
    intros k. assert (Hc : forall k, ~ In CR (begins_only k)).
    { clear k. induction k as [|k IH]; [easy|]. cbn [begins_only]. rewrite in_app_iff. intros [I|[I|I]]; [|easy|easy].
      vm_compute in I. intuition discriminate. }
    split.
    - intros (w & r & W & D). destruct w as [|c w].
      + destruct D as [D|D]; discriminate D.
      + inversion_clear W as [|? ? I _]. assert (c = 98)%N as -> by (destruct D as [D|D]; now injection D as <- _).
        vm_compute in I. intuition discriminate.
    - exists (LF :: begins_only k). split; [left; exists [LF]; split; [now right|easy]|]. left.
      exists [], (lit "begin"), [], [], (lit "b"). split; [easy|]. split; [constructor|]. split.
      { repeat (apply Forall_cons; [now right|]). constructor. }
      split; [constructor; now intros [r H]|]. split; [|easy]. right. left. split; [now exists (begins_only k)|].
      split; [vm_compute; intuition discriminate|]. intros (a & b & H). apply (Hc (S k)). cbn [begins_only].
      assert (In CR (lit "b" ++ LF :: begins_only k)) as I by (rewrite H; apply in_or_app; right; now left).
      change (lit "begin:b") with (lit "begin:" ++ lit "b"). rewrite <- app_assoc. apply in_or_app. now right.
  Qed.
  Lemma only_no_break : forall k, no_break (begins_only k).
  Proof. intros [|k]; [apply no_break_nil|]. cbn [begins_only]. apply no_break_head; easy. Qed.
  Lemma only_after : forall k, after_breaks (begins_only k) (begins_only k).
  Proof. intros k. exists []. split; [constructor|]. split; [easy|]. apply no_break_spec, only_no_break. Qed.
  Lemma only_none : prop_reads [] (mk_pprop [] [] []) [].
  Proof.
    assert (M : forall k r, [] = k ++ r -> k = [] /\ r = @nil N) by (intros [|] [|]; easy). split.
    - intros (w & r & _ & [H|H]); apply M in H as [_ H]; discriminate.
    - exists []. split; [right; split; [apply (no_break_spec []), no_break_nil|easy]|]. right. split.
      + intros q x (w & k & qs & t & v & H & _). apply M in H as [_ H]. symmetry in H.
        destruct k; [|discriminate]. destruct t; discriminate.
      + exists []. split; [easy|]. split; [constructor|]. split; [easy|easy].
  Qed.
  Lemma only_stuck : forall k, body_stuck (begins_only k) /\ comp_stuck (begins_only (S k)).
  Proof.
    assert (X : forall k, body_stuck (begins_only k) -> comp_stuck (begins_only (S k))).
    { intros k B. cbn [begins_only]. change (lit "begin:b") with (lit "begin:" ++ lit "b"). rewrite <- app_assoc.
      apply (cs_comp (lit "begin:") (lit "b") (LF :: begins_only k) (begins_only k)); try easy.
      - apply Forall_cons; [now right|constructor].
      - intros c r H. injection H as <- _. intros [I|I]; [vm_compute in I; intuition discriminate|discriminate].
      - destruct (only_after k) as (b & B' & Q & M). exists ([LF] ++ b). split; [constructor; [now right|easy]|].
        split; [|easy]. now rewrite <- app_assoc, <- Q. }
    assert (Y : forall k, body_stuck (begins_only k)); [|split; auto].
    induction k as [|k IH].
    - apply (bs_here [] (mk_pprop [] [] [])); try (intros H; apply keyword_spec in H; discriminate).
      exists []. split; [apply only_none|apply (only_after 0)].
    - apply (bs_begin _ (mk_pprop (lit "begin") (lit "b") []) (begins_only k)); auto.
      exists (begins_only k). split; [apply only_item|apply only_after].
  Qed.
  Lemma only_length : forall k, length (begins_only k) = 8 * k.
  Proof. induction k as [|k IH]; [easy|]. cbn [begins_only]. rewrite app_length. cbn [length]. rewrite IH. cbn. lia. Qed.
  Lemma only_component : forall f k, length (begins_only k) < f -> exists e, component (E := E) f (begins_only k) = IErr e.
  Proof.
    intros f [|k] L; [|apply reads_complete; [apply only_stuck|easy]]. destruct f; [cbn in L; lia|].
    apply (component_not_begin f [] []); [apply skips_none, no_break_nil|easy].
  Qed.
  Lemma only_body : forall f k, length (begins_only k) < f -> exists p, body_p (E := E) f (begins_only k) = IOk (begins_only (pred k)) (inr p).
  Proof.
    intros f k L. destruct (only_component f k L) as [e C].
    assert (exists p, property_p (E := E) (begins_only k) = IOk (begins_only (pred k)) p) as [p P].
    { destruct k; eexists; apply prop_reads_iff; [apply only_none|apply only_item]. }
    exists p. unfold body_p, cut, context, alt2.
    pose proof (separated_none _ (pmap (@inl pcomp pprop) (component f)) _ (only_no_break k)) as S1.
    pose proof (separated_none _ (pmap (@inr pcomp pprop) (property_p)) _ (only_no_break k)) as S2.
    unfold pmap, pbind, pret in S1, S2 |- *. rewrite C in S1. rewrite P in S2. rewrite S1. destruct S2 as (r & A & ->).
    now rewrite (no_breaks_self _ _ (only_no_break (pred k)) A).
  Qed.
  Lemma only_till : forall f m n k, (forall j, j <= k -> fst (ccomponent (E := E) f (begins_only j)) = 2 ^ j) ->
    length (begins_only k) < f -> k < m -> fst (cmany_till m (cbody f) (end_p (E := E) n) (begins_only k)) = 2 ^ S k - 1.
  Proof.
    intros f m n k. revert m. induction k as [|k IH]; intros m C L M; (destruct m as [|m]; [lia|]); rewrite ctill_step by apply only_no_break;
      rewrite C by lia; destruct (only_body f _ L) as [p ->]; cbn [pred].
    - pose proof (end_cases (E := E) n [] no_break_nil) as En. cbn [begins_only] in *. rewrite Nat.eqb_refl.
      destruct (end_p n []) as [r x|e|e|]; try easy; destruct En as (ke & j & K & H & _); destruct ke; easy.
    - pose proof (end_cases (E := E) n (begins_only (S k)) (only_no_break _)) as En. rewrite !only_length. replace (_ =? _) with false by lia.
      rewrite IH; [|intros; apply C; lia|rewrite only_length in *; lia|lia].
      assert (Ne : ~ ends (begins_only (S k))) by (intros H; apply keyword_spec in H; discriminate H).
      pose proof (pow_pos k). destruct (end_p n _) as [r x|e|e|]; [|cbn [Nat.pow]; lia| |easy]; destruct Ne.
      + destruct En as (ke & j & K & -> & _). now exists ke, (n ++ j).
      + destruct En as (ke & j & K & -> & _). now exists ke, j.
  Qed.
  Lemma only_calls : forall f k, length (begins_only k) < f -> fst (ccomponent (E := E) f (begins_only k)) = 2 ^ k.
  Proof.
    induction f as [|f IH]; intros k L; [lia|]. destruct k as [|k].
    - apply (ccomponent_not_begin f [] []); [apply skips_none, no_break_nil|]. intros H. apply keyword_spec in H. discriminate.
    - cbn [begins_only]. change (lit "begin:b") with (lit "begin:" ++ lit "b"). rewrite <- app_assoc.
      rewrite (ccomponent_begin f (lit "begin:") (lit "b") (LF :: begins_only k) (begins_only k)).
      + rewrite only_length in L. rewrite only_till; [pose proof (pow_pos (S k)); lia| | |]; rewrite ?only_length; try lia.
        intros j J. apply IH. rewrite only_length. lia.
      + easy.
      + apply Forall_cons; [now right|constructor].
      + intros c r H. injection H as <- _. intros [I|I]; [vm_compute in I; intuition discriminate|discriminate].
      + destruct (only_after k) as (b & B' & Q & M). exists ([LF] ++ b). split; [constructor; [now right|easy]|].
        split; [|easy]. now rewrite <- app_assoc, <- Q.
  Qed.
  Lemma only_components : forall k, fst (ccomponents_p (E := E) (begins_only k)) = 2 ^ k
    /\ components_p (E := E) (begins_only k) = IOk (begins_only k) [].
  Proof.
    intros k. split.
    - unfold ccomponents_p. cbn [cmany0]. unfold call_consuming at 1, ccomponent_p at 1.
      pose proof (only_calls (S (length (begins_only k))) k ltac:(lia)) as C.
      destruct (only_component (S (length (begins_only k))) k ltac:(lia)) as [e R]. rewrite <- erases_component in R.
      destruct (ccomponent _ _) as [n x]. cbn [fst snd] in *. now subst.
    - unfold components_p. cbn [many0]. unfold all_consuming at 1, component_p at 1.
      destruct (only_component (S (length (begins_only k))) k ltac:(lia)) as [e ->]. easy.
  Qed.
End Counting.

Lemma soft_none_iff : forall i, soft_begins i = 0 <-> forall a r, i = a ++ r -> begins r -> has_prefix (lit "BEGIN:") r.
Proof.
  intros i. split.
  - intros Z a r -> B. assert (S : soft_begins r = 0) by (pose proof (soft_suffix r (a ++ r) (ex_intro _ a eq_refl)); lia).
    apply keyword_spec in B. destruct r as [|c r]; [discriminate B|]. cbn [soft_begins] in S. unfold soft_begin in S.
    rewrite B in S. destruct (starts_with (lit "BEGIN:") (c :: r)) eqn:Q; [|cbn [andb negb] in S; lia].
    apply starts_with_spec in Q as [x Q]. now exists x.
  - intros H. induction i as [|c i IH]; [easy|]. cbn [soft_begins]. rewrite IH; [|intros a r Q; apply (H (c :: a)); now rewrite Q].
    destruct (soft_begin (c :: i)) eqn:S; [|easy]. exfalso. unfold soft_begin in S. apply andb_true_iff in S as [B S].
    destruct (H [] (c :: i) eq_refl) as [x Q]; [now apply keyword_spec|]. rewrite Q, starts_with_app in S. discriminate.
Qed.
