(** How deep the component parser calls itself: proofs. *)
From Verif Require Import Str StrFacts Spec ValueTypes Property Chrono DateTime Component Calendar Nom Parser SpecDoc SpecItems SpecGrammar SpecSerde SpecNest
  ParserProofs TotalProofs ReadProofs AcceptProofs RejectProofs ItemProofs DocProofs GrammarProofs.
From Verif Require ErrorProofs CallsProofs MessageSizeProofs.
From Coq Require Import ZifyBool ZifyNat ZifyN.

Scheme deep_m := Minimality for deep Sort Prop with body_deep_m := Minimality for body_deep Sort Prop.
Combined Scheme deep_mutind from deep_m, body_deep_m.

Section Nest.
  Context {U : Unicode} {E : Type} {PE : PErr E}.

  (** ** More fuel changes nothing but [IFuel] *)
  Definition upto {A} (p q : parser E A) : Prop := forall i, p i = IFuel \/ p i = q i.
  Lemma upto_refl : forall A (p : parser E A), upto p p.
  Proof. intros A p i. now right. Qed.
  Lemma body_upto : forall f g, upto (component f) (component g) -> upto (body_p f) (body_p g).
  Proof.
    intros f g H i. unfold body_p, cut, context, alt2.
    assert (L : upto (line_separated (pmap (@inl pcomp pprop) (component f))) (line_separated (pmap (@inl pcomp pprop) (component g)))).
    { intros j. unfold line_separated, delimited, pmap, pbind. destruct (many0 (S (length j)) (line_ending (E := E)) j) as [r x| | |]; auto. destruct (H r) as [->| ->]; auto. }
    destruct (L i) as [->| ->]; auto.
  Qed.
  Lemma till_upto : forall A B (p q : parser E A) (g : parser E B) m, upto p q -> upto (many_till m p g) (many_till m q g).
  Proof.
    intros A B p q g m H. induction m as [|m IH]; intros i; [now left|]. cbn [many_till]. destruct (g i); auto.
    destruct (H i) as [->| ->]; auto. destruct (q i) as [r a| | |]; auto. destruct (length r =? length i); auto. destruct (IH r) as [->| ->]; auto.
  Qed.
  Lemma component_upto : forall f g, f <= g -> upto (component f) (component g).
  Proof.
    induction f as [|f IH]; intros g L i; [now left|]. destruct g as [|g]; [lia|]. rewrite !component_S. unfold pbind.
    destruct (line (lit "BEGIN:") (valid_key_sequence (E := E)) i) as [r n| | |]; auto. destruct (till_upto _ _ _ _ (end_p n) (S (length r)) (body_upto f g (IH g ltac:(lia))) r) as [->| ->]; auto.
  Qed.

  (** ** The bound is met exactly at texts that are so deep *)
  Lemma body_fuel : forall f i, no_break i -> body_p (E := E) f i = IFuel <-> component (E := E) f i = IFuel.
  Proof.
    intros f i N. unfold body_p, cut, context, alt2. pose proof (separated_none _ (pmap (@inl pcomp pprop) (component (E := E) f)) i N) as S1.
    pose proof (separated_none _ (pmap (@inr pcomp pprop) (property_p (E := E))) i N) as S2. unfold pmap, pbind, pret in *.
    destruct (component f i) as [r c|e|e|].
    - destruct S1 as (r' & _ & ->). easy.
    - rewrite S1. pose proof (ErrorProofs.property_error (E := E) i) as X. destruct (property_p i) as [r p|e2|e2|]; try easy.
      + destruct S2 as (r' & _ & ->). easy.
      + rewrite S2. easy.
    - rewrite S1. easy.
    - rewrite S1. easy.
  Qed.
  Lemma body_deep_sound : forall f, (forall i, no_break i -> component (E := E) f i = IFuel -> deep (S f) i) ->
    forall m n i, no_break i -> length i < m -> many_till m (body_p (E := E) f) (end_p n) i = IFuel -> body_deep n (S f) i.
  Proof.
    intros f Hf. induction m as [|m IH]; intros n i N L H; [lia|]. cbn [many_till] in H. pose proof (end_cases (E := E) n i N) as En.
    destruct (end_p n i) as [r x|e|e|]; try easy. destruct (body_p f i) as [r a|e1|e1|] eqn:B; try easy.
    2:{ apply body_fuel in B; [|easy]. now apply bd_here; [|apply Hf]. }
    destruct (length r =? length i) eqn:Q; [easy|].
    assert (H' : many_till m (body_p (E := E) f) (end_p n) r = IFuel) by (destruct (many_till m _ _ r) as [? [? ?]| | |]; easy). clear H.
    pose proof (component_sound (E := E) f i N) as Sd.
    pose proof (separated_none _ (pmap (@inl pcomp pprop) (component (E := E) f)) i N) as S1.
    pose proof (separated_none _ (pmap (@inr pcomp pprop) (property_p (E := E))) i N) as S2.
    unfold body_p, cut, context, alt2 in B. unfold pmap, pbind, pret in *. destruct (component f i) as [r1 c|e1|e1|].
    - destruct S1 as (r' & A & S1). rewrite S1 in B. injection B as <- <-. apply reads_shrink in Sd as D. destruct D as (_ & Sf & Lr & Nr).
      apply no_breaks_self in A; [subst r'|easy]. apply (bd_comp _ _ _ c r1); [easy|]. apply IH; [easy|lia|easy].
    - rewrite S1 in B. destruct (property_p i) as [r1 p|e2|e2|] eqn:P; try (rewrite S2 in B; easy).
      destruct S2 as (r' & A & S2). rewrite S2 in B. injection B as <- <-.
      assert (I : item_reads i p r') by (exists r1; split; [now apply (prop_reads_iff (E := E))|easy]).
      destruct (item_suffix _ _ _ I) as [Sf Nr]. apply suffix_length in Sf. apply (bd_prop _ _ _ p r'); try easy; [intros ->; lia|].
      apply IH; [easy|lia|easy].
    - rewrite S1 in B. easy.
    - rewrite S1 in B. easy.
  Qed.
  Lemma begin_fuel : forall f kb n i j, map lower_ascii kb = lit "begin:" -> name_ok n -> name_ends i -> after_breaks i j ->
    component (E := E) (S f) (kb ++ n ++ i) = IFuel <-> many_till (S (length j)) (body_p (E := E) f) (end_p n) j = IFuel.
  Proof.
    intros f kb n i j K N M A. rewrite component_S. unfold pbind at 1. rewrite (begin_line kb n i j) by easy.
    unfold pbind at 1. destruct (after_suffix _ _ A) as [_ Nr].
    pose proof (body_sound (E := E) f (component_sound f) (S (length j)) n j Nr) as B'.
    destruct (many_till _ _ _ j) as [r2 [l y]|e|e|]; try easy.
    unfold pbind. assert (no_break r2) by now apply reads_shrink in B'. now rewrite lfs_none by easy.
  Qed.
  Lemma deep_sound : forall f i, no_break i -> component (E := E) f i = IFuel -> deep (S f) i.
  Proof.
    induction f as [|f IH]; intros i N H; [constructor|]. destruct (starts_with (lit "begin:") (map lower_ascii i)) eqn:Q.
    - apply keyword_spec in Q as (kb & x & K & ->). destruct (longest_name_ex x) as (n & j & -> & Nn & M).
      destruct (after_breaks_ex j) as [r A]. destruct (after_suffix _ _ A) as [_ Nr].
      apply (dp_inside _ _ _ _ r); try easy. apply (body_deep_sound f IH (S (length r))); [easy|lia|]. now apply (begin_fuel f kb n j r).
    - destruct (component_not_begin (E := E) f i i (skips_none _ N) Q) as [e Q2]. now rewrite Q2 in H.
  Qed.
  Lemma deep_complete :
    (forall d i, deep d i -> 1 <= d /\ forall f, f < d -> component (E := E) f i = IFuel) /\
    (forall n d i, body_deep n d i -> no_break i -> 1 <= d /\ forall f m, f < d -> length i < m -> many_till m (body_p (E := E) f) (end_p n) i = IFuel).
  Proof.
    assert (NE : forall i n, no_break i -> ~ ends i -> exists e, end_p (E := E) n i = IErr e).
    { intros i n N H. apply keyword_not in H. exact (end_line_err _ _ _ _ (skips_none _ N) H). }
    assert (BE : forall i, begins i -> ~ ends i).
    { intros i (k & r & K & ->) H. apply keyword_spec in H. rewrite begin_not_end in H by easy. easy. }
    apply (deep_mutind U (fun d i => 1 <= d /\ forall f, f < d -> component (E := E) f i = IFuel)
      (fun n d i => no_break i -> 1 <= d /\ forall f m, f < d -> length i < m -> many_till m (body_p (E := E) f) (end_p n) i = IFuel)).
    - intros i. split; [lia|]. intros f L. now replace f with 0 by lia.
    - intros d kb n i j K N M A B IH. split; [lia|]. intros [|f] L; [easy|]. destruct (after_suffix _ _ A) as [_ Nj]. destruct (IH Nj) as [_ H].
      apply (begin_fuel f kb n i j); try easy. apply H; lia.
    - intros n d i Ne _ [L IH] N. split; [easy|]. intros f [|m] Lf Lm; [easy|]. cbn [many_till]. destruct (NE i n N Ne) as [e ->].
      now rewrite (proj2 (body_fuel f i N) (IH f Lf)).
    - intros n d i c j C B IH N. destruct (proj1 reads_shrink _ _ _ C) as (Bi & Sf & Lj & Nj). destruct (IH Nj) as [L H]. split; [easy|].
      intros f [|m] Lf Lm; [easy|]. cbn [many_till]. destruct (NE i n N (BE _ Bi)) as [e0 ->].
      destruct (component_upto f (f + S (length i)) ltac:(lia) i) as [Q|Q]; [now rewrite (proj2 (body_fuel f i N) Q)|].
      rewrite (proj1 (reads_complete (E := E)) _ _ _ C (f + S (length i))) in Q by lia.
      assert (body_p (E := E) f i = IOk j (inl c)) as ->.
      { unfold body_p, cut, context, alt2. rewrite (line_separated_ok _ _ i i j j (inl c)); [easy|now apply skips_none| |now apply skips_none]. unfold pmap, pbind. now rewrite Q. }
      replace (length j =? length i) with false by lia. now rewrite H by lia.
    - intros n d i p j Ne D I NJ B IH N. destruct (item_suffix _ _ _ I) as [Sf Nj]. destruct (IH Nj) as [L H]. split; [easy|].
      intros f [|m] Lf Lm; [easy|]. cbn [many_till]. destruct (NE i n N Ne) as [e0 ->].
      destruct (component_upto f (f + S (length i)) ltac:(lia) i) as [Q|Q]; [now rewrite (proj2 (body_fuel f i N) Q)|].
      assert (X : exists e, component (E := E) f i = IErr e).
      { rewrite Q. destruct D as [D|D]; [|apply (proj1 (proj2 (proj2 (reads_complete (E := E)))) i D); lia]. rewrite Nat.add_succ_r. apply keyword_not in D.
        exact (component_not_begin _ i i (skips_none _ N) D). }
      destruct X as [e X].
      assert (body_p (E := E) f i = IOk j (inr p)) as ->.
      { destruct I as (k & P & A). apply (prop_reads_ok (E := E)) in P. unfold body_p, cut, context, alt2.
        rewrite (line_separated_err _ _ i i e (skips_none _ N)) by (unfold pmap, pbind; now rewrite X).
        rewrite (line_separated_ok _ _ i i k j (inr p)); [easy|now apply skips_none| |now apply skips_after]. unfold pmap, pbind. now rewrite P. }
      assert (length j <> length i) by (intros Q2; now apply NJ, suffix_same). apply suffix_length in Sf.
      replace (length j =? length i) with false by lia. now rewrite H by lia.
  Qed.
  Theorem fuel_deep : forall f i, component (E := E) f i = IFuel <-> text_deep (S f) i.
  Proof.
    intros f i. destruct (after_breaks_ex i) as [j A]. destruct (after_suffix _ _ A) as [_ N].
    assert (S : component (E := E) f i = component f j) by (destruct f; [easy|now apply component_skips]). rewrite S. split.
    - intros H. exists j. split; [easy|]. now apply deep_sound.
    - intros (j' & A' & D). assert (j' = j) as ->; [|exact (proj2 (proj1 deep_complete _ _ D) f ltac:(lia))]. destruct (skips_after (E := E) _ _ A) as [l Q], (skips_after (E := E) _ _ A') as [l' Q']. congruence.
  Qed.

  (** ** Enough calls give what the parser gives *)
  Theorem enough_calls : forall f i, text_deep (S f) i \/ component (E := E) f i = component_p i.
  Proof.
    intros f i. destruct (component_upto f (f + S (length i)) ltac:(lia) i) as [Q|Q]; [left; now apply fuel_deep|]. right.
    pose proof (component_total (E := E) i) as T. unfold component_p in *.
    destruct (component_upto (S (length i)) (f + S (length i)) ltac:(lia) i) as [R|R]; [now rewrite R in T|congruence].
  Qed.
  Lemma deep_less : forall f i, component (E := E) (S f) i = IFuel -> component (E := E) f i = IFuel.
  Proof. intros f i H. destruct (component_upto f (S f) ltac:(lia) i) as [Q|Q]; congruence. Qed.

  (** ** Documents *)
  Definition item_levels (x : wline + wtree) : nat := match x with inl _ => 1 | inr t => levels t end.
  Definition most (its : list (wline + wtree)) : nat := fold_right (fun x m => Nat.max (item_levels x) m) 0 its.
  Lemma levels_eq : forall n its, levels (W n its) = S (most its).
  Proof. reflexivity. Qed.
  Lemma items_levels : forall y f n its ss ke ee rest,
    (forall t, In (inr t) its -> wtree_ok y t -> forall s, wtree_text y t s -> forall rest, no_break rest ->
       (y = Lf -> ~ has_crlf (s ++ rest)) -> component (E := E) f (s ++ rest) = IFuel <-> f < levels t) ->
    items_ok y its -> items_text y its ss -> map lower_ascii ke = lit "end:" -> line_end y ee -> no_break rest ->
    (y = Lf -> ~ has_crlf (concat ss ++ ke ++ n ++ ee ++ rest)) -> forall fuel, length its < fuel ->
    many_till fuel (body_p (E := E) f) (end_p n) (concat ss ++ ke ++ n ++ ee ++ rest) = IFuel <-> f < most its.
  Proof.
    intros y f n its ss ke ee rest IHt O T. revert IHt O.
    assert (Nt : map lower_ascii ke = lit "end:" -> no_break (ke ++ n ++ ee ++ rest)).
    { intros H. apply keyword_no_break. eauto. }
    induction T as [|x s its ss Tx T IH]; intros IHt O Hke Hee R C fuel F; (destruct fuel as [|fuel]; [cbn in F; lia|]); cbn [many_till].
    - cbn [concat app most fold_right]. rewrite (end_ok y) by easy. split; [easy|lia].
    - inversion O as [|? ? Ox O']; subst. cbn [concat] in *. rewrite <- app_assoc in *.
      set (tail := concat ss ++ ke ++ n ++ ee ++ rest) in *. cbn [most fold_right]. fold (most its).
      destruct (item_start y x s tail Ox Tx) as (N1 & N2 & N3).
      assert (Ntail : no_break tail) by (apply (items_start y its); auto).
      assert (Ctail : y = Lf -> ~ has_crlf tail).
      { intros Y K. apply (C Y). now apply has_crlf_app_r. }
      destruct (end_line_err _ (cut (context "mismatching end" (tag n))) _ _ (skips_none _ N1) N2) as [er Er].
      unfold end_p at 1. rewrite Er.
      assert (B : (component (E := E) f (s ++ tail) = IFuel <-> f < item_levels x) /\
        (component (E := E) f (s ++ tail) <> IFuel -> body_p (E := E) f (s ++ tail) = IOk tail (child_of x))).
      { inversion Tx as [l s' (e & He & Hs)|t s' Ht]; subst.
        - inversion Ox as [? L|]; subst. rewrite <- app_assoc in *. cbn [child_of item_levels]. destruct f as [|f].
          + split; [split; [lia|easy]|easy].
          + split; [|intros _; now apply (body_line y)]. destruct (wline_no_keyword y l e tail L He) as (_ & Q & Nb).
            destruct (component_not_begin (E := E) f _ _ (skips_none _ Nb) Q) as [er2 ->]. split; [easy|lia].
        - inversion Ox; subst. cbn [child_of item_levels]. split; [apply IHt; try easy; now left|]. intros Q.
          destruct (component_upto f (S (f + length s)) ltac:(lia) (s ++ tail)) as [Q'|Q']; [easy|].
          assert (Q2 : component (E := E) (S (f + length s)) ([] ++ s ++ tail) = IOk tail (wtree_read t)).
          { apply (component_text_ok y); try easy; [constructor|lia]. }
          cbn [app] in Q2. unfold body_p, cut, context, alt2.
          rewrite (line_separated_ok _ _ _ _ tail tail (inl (wtree_read t)) (skips_none _ N1)); [easy| |now apply skips_none].
          unfold pmap, pbind. now rewrite Q', Q2. }
      destruct B as [B1 B2]. destruct (component f (s ++ tail)) eqn:Q.
      4:{ rewrite (proj2 (body_fuel f _ N1) Q). split; [intros _|easy]. assert (f < item_levels x) by now apply B1. lia. }
      all: rewrite B2 by easy; assert (~ f < item_levels x) by (intros X; now apply B1 in X).
      all: replace (length tail =? length (s ++ tail)) with false
        by (symmetry; apply Nat.eqb_neq; rewrite app_length; destruct s; [easy|cbn [length]; lia]).
      all: assert (I : many_till fuel (body_p (E := E) f) (end_p n) tail = IFuel <-> f < most its)
        by (apply IH; try easy; [intros; apply IHt; try easy; now right|cbn [length] in F; lia]).
      all: destruct (many_till fuel (body_p f) (end_p n) tail) as [? [? ?]| | |]; (split; [intros X; try discriminate X; assert (f < most its) by (now apply I); lia|intros X; try reflexivity; assert (Y : f < most its) by lia; now apply I in Y]).
  Qed.
  Theorem document_levels : forall y t, wtree_ok y t -> forall s, wtree_text y t s -> forall b rest f,
    breaks b -> no_break rest -> (y = Lf -> ~ has_crlf (s ++ rest)) -> component (E := E) f (b ++ s ++ rest) = IFuel <-> f < levels t.
  Proof.
    intros y. induction t as [n its IH] using ParserProofs.wtree_deep. intros O s T b rest f B R C.
    destruct f as [|f]; [rewrite levels_eq; split; [lia|easy]|].
    rewrite (component_skips f (b ++ s ++ rest) (s ++ rest)).
    2:{ exists b. split; [easy|]. split; [easy|]. apply no_break_spec. now apply (wtree_text_no_break y (W n its) s rest). }
    inversion O as [? ? Hn Hits]; subst. inversion T as [? ? kb ke eb ee ss Hkb Hke Heb Hee Hss]; subst. clear T.
    rewrite <- !app_assoc in *. set (tail := concat ss ++ ke ++ n ++ ee ++ rest) in *.
    assert (Nt : no_break (ke ++ n ++ ee ++ rest)) by (apply keyword_no_break; eauto).
    assert (Ntail : no_break tail) by (eapply items_start; eauto).
    rewrite (begin_fuel f kb n (eb ++ tail) tail); [|easy|easy|now apply (CallsProofs.name_ends_line y)|].
    2:{ exists eb. split; [now apply line_end_breaks in Heb|]. split; [easy|]. now apply no_break_spec. }
    rewrite levels_eq. unfold tail at 2. transitivity (f < most its); [|split; lia]. apply (items_levels y); [|easy|easy|easy|easy|easy| |].
    - intros t I Ot s Ts r Rr Cr. apply (IH t I Ot s Ts [] r f); try easy. constructor.
    - intros Y K. apply (C Y). do 3 apply has_crlf_app_r. exact K.
    - apply (items_length y) with (2 := Hss) in Hits. unfold tail. rewrite app_length. lia.
  Qed.

  (** ** What is read is no deeper *)
  Lemma reads_deep :
    (forall i c r, comp_reads i c r -> deep (comp_depth c) i) /\
    (forall n i ps cs r, body_reads n i ps cs r -> forall c, In c cs -> body_deep n (comp_depth c) i) /\
    (forall i, comp_stuck i -> True) /\ (forall i, body_stuck i -> True).
  Proof.
    assert (BE : forall i, begins i -> ~ ends i).
    { intros i (k & r & K & ->) H. apply keyword_spec in H. rewrite begin_not_end in H by easy. easy. }
    apply (reads_mutind U (fun i c r => deep (comp_depth c) i) (fun n i ps cs r => forall c, In c cs -> body_deep n (comp_depth c) i) (fun _ => True) (fun _ => True)); try easy.
    - intros kb n i j ps cs r K N M A B IH. cbn [comp_depth]. destruct cs as [|c0 cs0] eqn:Q; [constructor|]. rewrite <- Q in *.
      apply (dp_inside _ _ _ _ j); try easy.
      assert (X : exists c, In c cs /\ fold_right (fun x d => Nat.max (comp_depth x) d) 0 cs = comp_depth c).
      { assert (cs <> []) as Z by now rewrite Q. clear - Z. induction cs as [|c cs IH]; [easy|]. cbn [fold_right]. destruct cs as [|c' cs].
        - exists c. split; [now left|]. cbn [fold_right]. lia.
        - destruct (IH ltac:(easy)) as (d & I & ->). destruct (Nat.max_spec (comp_depth c) (comp_depth d)) as [[_ ->]|[_ ->]]; [exists d; split; [now right|easy]|exists c; split; [now left|easy]]. }
      destruct X as (c & I & ->). now apply IH.
    - intros n i c j ps cs r C D _ IH c' [<-|I]; [apply bd_here; [apply BE; now apply reads_shrink in C|easy]|]. apply (bd_comp _ _ _ c j); auto.
    - intros n i p j ps cs r Ne Nb I J B IH c Ic. apply (bd_prop _ _ _ p j); auto.
    - intros n i p j ps cs r St _ I B IH c Ic. apply (bd_prop _ _ _ p j); auto; [apply BE; now apply reads_shrink|].
      intros ->. apply (begin_not_self i p); [now apply reads_shrink|easy].
  Qed.
  Theorem read_height : forall f i r c, component (E := E) f i = IOk r c -> comp_depth c <= f.
  Proof.
    intros f i r c H. destruct (Nat.le_gt_cases (comp_depth c) f) as [L|L]; [easy|exfalso].
    destruct f as [|f]; [easy|]. destruct (after_breaks_ex i) as [j A]. destruct (after_suffix _ _ A) as [_ N].
    rewrite (component_skips f i j A) in H. pose proof (component_sound (E := E) (S f) j N) as S. rewrite H in S.
    apply reads_deep in S. apply deep_complete in S. destruct S as [_ S]. rewrite S in H by easy. easy.
  Qed.

  (** ** Seven characters a call *)
  Lemma deep_size :
    (forall d i, deep d i -> 7 * d <= length i + 8 /\ (~ begins i -> d = 1)) /\
    (forall n d i, body_deep n d i -> no_break i -> 7 * d <= length i + 8 /\ (name_ends i -> 7 * d <= length i + 7)).
  Proof.
    apply (deep_mutind U (fun d i => 7 * d <= length i + 8 /\ (~ begins i -> d = 1))
      (fun n d i => no_break i -> 7 * d <= length i + 8 /\ (name_ends i -> 7 * d <= length i + 7))).
    - intros i. split; [lia|easy].
    - intros d kb n i j K N M A B IH. destruct (after_suffix _ _ A) as [Sf Nj]. destruct (IH Nj) as [L1 L2].
      split; [|intros X; exfalso; apply X; eexists kb, (n ++ i); now split].
      assert (Lk : length kb = 6) by (rewrite <- (map_length lower_ascii), K; reflexivity). rewrite !app_length, Lk.
      destruct (Nat.eq_dec (length j) (length i)) as [Q|Q].
      + apply suffix_same in Q; [|easy]. subst j. specialize (L2 M). lia.
      + apply suffix_length in Sf. lia.
    - intros n d i Ne D [L1 L2] Ni. split; [easy|]. intros X. rewrite L2; [lia|]. intros Y. now apply MessageSizeProofs.begins_key in Y.
    - intros n d i c j C B IH Ni. destruct (proj1 reads_shrink _ _ _ C) as (Bi & Sf & Lj & Nj). destruct (IH Nj). split; [lia|].
      intros X. now apply MessageSizeProofs.begins_key in Bi.
    - intros n d i p j Ne D I NJ B IH Ni. destruct (item_suffix _ _ _ I) as [Sf Nj]. destruct (IH Nj) as [L _].
      assert (length j <> length i) by (intros Q; now apply NJ, suffix_same). apply suffix_length in Sf. lia.
  Qed.
  Theorem size_deep : forall d i, text_deep d i -> 7 * d <= length i + 8.
  Proof. intros d i (j & A & D). apply after_suffix in A as [A _]. apply suffix_length in A. apply deep_size in D. lia. Qed.

  Lemma begun_deep : forall k, deep (k + 2) (begun k).
  Proof.
    assert (N : forall k, ~ ends (begun k)) by (intros k H; apply keyword_spec in H; destruct k; vm_compute in H; discriminate).
    assert (B : forall k, after_breaks ([LF] ++ begun k) (begun k)).
    { intros k. exists [LF]. split; [|split; [easy|]]. { apply (bk_cons [LF] []); [now right|constructor]. } apply no_break_spec. now destruct k. }
    assert (Z : after_breaks [] []).
    { exists []. split; [constructor|]. split; [easy|]. apply no_break_spec. now split. }
    induction k as [|k IH].
    - change (begun 0) with (lit "BEGIN:" ++ [] ++ []). apply (dp_inside _ _ _ _ []); try easy; [constructor|].
      apply bd_here; [|constructor]. intros (a & r & K & H). symmetry in H. apply app_eq_nil in H as [-> _]. discriminate.
    - change (begun (S k)) with (lit "BEGIN:" ++ [] ++ ([LF] ++ begun k)). cbn [Nat.add]. apply (dp_inside _ _ _ _ (begun k)); try easy; [constructor| |now apply bd_here].
      apply (CallsProofs.name_ends_line Lf [LF]). now exists 0.
  Qed.
  Lemma begun_length : forall k, length (begun k) = 7 * k + 6.
  Proof. induction k as [|k IH]; [easy|]. cbn [begun]. rewrite !app_length, IH. cbn. lia. Qed.
End Nest.
