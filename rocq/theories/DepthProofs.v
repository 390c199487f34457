(** The depth of the recursion of the parser. *)
From Verif Require Import Str StrFacts Spec ValueTypes Property Chrono DateTime Component Calendar Nom Parser SpecDoc SpecItems SpecGrammar
  ParserProofs TotalProofs ReadProofs AcceptProofs RejectProofs ItemProofs DocProofs GrammarProofs Cost SpecCost CostProofs.
From Coq Require Import ZifyBool ZifyNat ZifyN.

Section Depth.
  Context {U : Unicode} {E : Type} {PE : PErr E}.

  (** *** More depth changes nothing. *)
  Definition extends {A} (p q : parser E A) : Prop := forall i, p i <> IFuel -> q i = p i.
  Lemma extends_bind : forall A B (p q : parser E A) (f g : A -> parser E B), extends p q -> (forall a, extends (f a) (g a)) -> extends (pbind p f) (pbind q g).
  Proof.
    intros A B p q f g H G i. unfold pbind. specialize (H i). destruct (p i) as [r a|e|e|]; intros N; rewrite ?H by easy; try easy. now apply G.
  Qed.
  Lemma extends_self : forall A (p : parser E A), extends p p.
  Proof. easy. Qed.
  Lemma extends_alt2 : forall A (p q r s : parser E A), extends p q -> extends r s -> extends (alt2 p r) (alt2 q s).
  Proof.
    intros A p q r s H G i. unfold alt2. specialize (H i). destruct (p i) as [x a|e|e|]; intros N; rewrite ?H by easy; try easy.
    specialize (G i). destruct (r i); try easy; now rewrite G.
  Qed.
  Lemma extends_cut : forall A (p q : parser E A), extends p q -> extends (cut p) (cut q).
  Proof. intros A p q H i. unfold cut. specialize (H i). destruct (p i); intros N; rewrite ?H by easy; easy. Qed.
  Lemma extends_context : forall A c (p q : parser E A), extends p q -> extends (context c p) (context c q).
  Proof. intros A c p q H i. unfold context. specialize (H i). destruct (p i); intros N; rewrite ?H by easy; easy. Qed.
  Lemma extends_till : forall A B m (p q : parser E A) (g : parser E B), extends p q -> extends (many_till m p g) (many_till m q g).
  Proof.
    intros A B m p q g H. induction m as [|m IH]; intros i N; [easy|]. cbn [many_till] in *. destruct (g i); try easy. specialize (H i).
    destruct (p i) as [r a|x|x|]; rewrite ?H by easy; try easy. destruct (_ =? _); [easy|]. specialize (IH r). destruct (many_till m p g r) as [? []|?|?|]; now rewrite ?IH.
  Qed.
  Lemma extends_separated : forall A (p q : parser E A), extends p q -> extends (line_separated p) (line_separated q).
  Proof. intros A p q H. unfold line_separated, delimited. apply extends_bind; [easy|]. intros _. apply extends_bind; [easy|]. easy. Qed.
  Lemma component_extends : forall f, extends (component (E := E) f) (component (S f)).
  Proof.
    induction f as [|f IH]; [now intros i N|]. rewrite (component_S (S f)), (component_S f). apply extends_bind; [easy|]. intros n. apply extends_bind; [|easy].
    intros i. apply extends_till. unfold body_p. apply extends_cut, extends_context, extends_alt2; [|easy]. apply extends_separated. unfold pmap. now apply extends_bind.
  Qed.
  Lemma component_deeper : forall f g i, f <= g -> component (E := E) f i <> IFuel -> component (E := E) g i = component f i.
  Proof.
    intros f g i L N. induction L as [|g L IH]; [easy|]. rewrite <- IH. apply component_extends. now rewrite IH.
  Qed.

  (** *** How deep it is. *)
  Lemma places_suffix : forall r i, suffix r i -> begin_places r <= begin_places i.
  Proof. intros r i [p ->]. induction p as [|c p IH]; [easy|]. cbn [app begin_places]. lia. Qed.
  Lemma places_begin : forall r i, begins i -> suffix r i -> length r < length i -> S (begin_places r) <= begin_places i.
  Proof.
    intros r i B [[|c p] ->] L; [cbn in L; lia|]. apply keyword_spec in B. cbn [app begin_places] in *. rewrite B.
    pose proof (places_suffix r (p ++ r) (ex_intro _ p eq_refl)). lia.
  Qed.
  Lemma till_depth : forall f, (forall i, no_break i -> begin_places i < f -> component (E := E) f i <> IFuel) ->
    forall m n i, no_break i -> begin_places i < f -> length i < m -> many_till m (body_p (E := E) f) (end_p n) i <> IFuel.
  Proof.
    intros f Hf. induction m as [|m IH]; intros n i N B L; [lia|]. cbn [many_till]. pose proof (end_cases (E := E) n i N) as En.
    destruct (end_p n i) as [r x|e|e|]; try easy. pose proof (body_cases f i N) as C. specialize (Hf i N B).
    assert (K : forall r (a : child), suffix r i -> no_break r -> length r < length i ->
      match many_till m (body_p (E := E) f) (end_p n) r with
      | IOk r' (l, b) => IOk r' (a :: l, b) | IErr e => IErr e | IFail e => IFail e | IFuel => IFuel end <> IFuel).
    { intros r a S Nr Lr. pose proof (places_suffix _ _ S). specialize (IH n r Nr ltac:(lia) ltac:(lia)).
      destruct (many_till m _ _ r) as [? []|?|?|]; easy. }
    destruct (component f i) as [r c|e1|e1|]; [| | |easy].
    - destruct C as (Lr & S & Nr & ->). replace (_ =? _) with false by lia. now apply K.
    - destruct C as [_ [(p & r & I & ->)|(_ & e2 & ->)]]; [|easy]. destruct (item_suffix _ _ _ I) as [S Nr].
      destruct (length r =? length i) eqn:Q; [easy|]. apply K; try easy. apply suffix_length in S. lia.
    - destruct C as [e2 ->]. easy.
  Qed.
  Lemma component_depth : forall f i, no_break i -> begin_places i < f -> component (E := E) f i <> IFuel.
  Proof.
    induction f as [|f IH]; intros i N B; [lia|]. destruct (starts_with (lit "begin:") (map lower_ascii i)) eqn:Q.
    - apply keyword_spec in Q as Bg. apply keyword_spec in Q as (kb & x & K & ->). destruct (longest_name_ex x) as (n & j & -> & Nn & M).
      destruct (after_breaks_ex j) as [r A]. rewrite component_S. unfold pbind at 1. rewrite (begin_line kb n j r) by easy.
      unfold pbind at 1. destruct (after_suffix _ _ A) as [Sr Nr].
      assert (S : suffix r (kb ++ n ++ j)).
      { eapply suffix_trans; [exact Sr|]. exists (kb ++ n). now rewrite <- app_assoc. }
      assert (L : length r < length (kb ++ n ++ j)).
      { apply suffix_length in Sr. rewrite !app_length. destruct kb; [easy|]. cbn [length]. lia. }
      pose proof (places_begin _ _ Bg S L).
      pose proof (till_depth f IH (Datatypes.S (length r)) n r Nr ltac:(lia) ltac:(lia)) as T.
      pose proof (body_sound f (component_sound f) (Datatypes.S (length r)) n r Nr) as Bd.
      destruct (many_till _ _ _ r) as [r2 [l y]|e|e|]; try easy. unfold pbind. assert (no_break r2) by now apply reads_shrink in Bd.
      now rewrite lfs_none.
    - destruct (component_not_begin f i i (skips_none _ N) Q) as [e ->]. easy.
  Qed.
  Lemma depth_enough : forall f i, begin_places i < f -> component (E := E) f i = component_p (E := E) i.
  Proof.
    intros f i B. destruct f as [|f]; [lia|]. destruct (after_breaks_ex i) as [j A]. unfold component_p. rewrite !(component_skips _ i j A).
    apply after_suffix in A as [S N]. pose proof (places_suffix _ _ S).
    assert (L : begin_places j < Datatypes.S (length i)).
    { assert (begin_places i <= length i); [|lia]. clear. induction i as [|c i IH]; [easy|]. cbn [begin_places length]. destruct (starts_with _ _); lia. }
    destruct (Nat.le_ge_cases (Datatypes.S f) (Datatypes.S (length i))) as [Q|Q].
    - symmetry. apply component_deeper; [easy|]. apply component_depth; [easy|lia].
    - apply component_deeper; [easy|]. apply component_depth; easy.
  Qed.
End Depth.
