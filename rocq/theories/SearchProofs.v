(** Where the parser looks for line breaks. *)
From Verif Require Import Str StrFacts Spec ValueTypes Property Chrono DateTime Component Calendar Nom Parser SpecDoc SpecItems SpecGrammar
  ParserProofs TotalProofs ReadProofs AcceptProofs RejectProofs ItemProofs DocProofs GrammarProofs Cost SpecCost CostProofs SpecCalls CallsProofs Search SpecSearch.
From Verif Require ErrorProofs.
From Coq Require Import ZifyBool ZifyNat ZifyN.

(** ** The places looked at. *)
Lemma visited_found : forall t v r, t <> [] -> (forall x y, v ++ t = x ++ t ++ y -> y = []) -> visited t (v ++ t ++ r) = length v + 1.
Proof.
  intros t v r T. induction v as [|c v IH]; intros F.
  - cbn [app length]. destruct (t ++ r) as [|d z] eqn:Q; [apply app_eq_nil in Q; tauto|]. cbn [visited]. rewrite <- Q, starts_with_app. easy.
  - cbn [app visited]. destruct (starts_with t (c :: v ++ t ++ r)) eqn:S.
    + exfalso. apply starts_with_spec in S as [z S].
      assert (exists y, (c :: v) ++ t = t ++ y) as [y Y].
      { assert (P : forall (a b x y : str), a ++ b = x ++ y -> length x <= length a -> exists w, a = x ++ w).
        { induction a as [|h a IHa]; intros b [|h' x] w E L; cbn [length] in L; try lia; [now exists []|now exists (h :: a)|].
          cbn [app] in E. injection E as -> E. destruct (IHa b x w E ltac:(lia)) as [u ->]. now exists u. }
        apply (P ((c :: v) ++ t) r t z); [now rewrite <- app_assoc|rewrite app_length; lia]. }
      specialize (F [] y Y). subst y. apply (f_equal (@length N)) in Y. rewrite !app_length in Y. cbn [length] in Y. lia.
    + rewrite IH; [easy|]. intros x y H. apply (F (c :: x) y). cbn [app]. now rewrite H.
Qed.
Lemma visited_none : forall t s, find_sub t s = None -> visited t s = length s + 1.
Proof.
  intros t. induction s as [|c s IH]; cbn [find_sub visited]; destruct (starts_with t _); try easy.
  destruct (find_sub t s) as [[a b]|]; [easy|]. intros _. cbn [length]. now rewrite IH.
Qed.
Lemma visited_some : forall t s a b, find_sub t s = Some (a, b) -> visited t s = length a + 1.
Proof.
  intros t. induction s as [|c s IH]; cbn [find_sub visited]; intros a b; destruct (starts_with t _) eqn:S; try easy.
  - intros H. now injection H as <- <-.
  - intros H. now injection H as <- <-.
  - destruct (find_sub t s) as [[a' b']|] eqn:F; [|easy]. intros H. injection H as <- <-. cbn [length]. now rewrite (IH a' b').
Qed.
Lemma visited_le : forall t s, visited t s <= length s + 1.
Proof. intros t. induction s as [|c s IH]; cbn [visited length]; destruct (starts_with t _); lia. Qed.

(** The looks for the end of a value. *)
Definition value_looks (v : str) : nat :=
  visited [CR; LF] v + match find_sub [CR; LF] v with Some _ => 0 | None => visited [LF] v end.
Lemma value_looks_le : forall v, value_looks v <= 2 * (length v + 1).
Proof. intros v. unfold value_looks. pose proof (visited_le [CR; LF] v). pose proof (visited_le [LF] v). destruct (find_sub _ v); lia. Qed.

Section Searching.
  Context {U : Unicode} {E : Type} {PE : PErr E}.

  (** ** Counting changes nothing. *)
  Lemma erases_alt3 : forall A c (p : parser E A) d q e s, erases c p -> erases d q -> erases e s -> erases (calt3 c d e) (alt3 p q s).
  Proof.
    intros A c p d q e s H G K i. unfold calt3, alt3. specialize (H i). destruct (c i) as [n x]. cbn [snd] in H. subst x.
    destruct (p i) as [r a|x|x|]; try easy. specialize (G i). destruct (d i) as [m y]. cbn [snd] in G. subst y.
    destruct (q i) as [r a|y|y|]; try easy. specialize (K i). destruct (e i) as [k z]. cbn [snd] in *. subst z. now destruct (s i).
  Qed.
  Lemma erases_value : erases (svalue (E := E)) (context "property value" (alt3 (take_until [CR; LF]) (take_until [LF]) (take_while (fun _ => true)))).
  Proof. apply erases_context, erases_alt3; easy. Qed.
  Lemma erases_property : erases (sproperty (E := E)) property_p.
  Proof.
    apply erases_context, erases_cut, erases_map. unfold pair at 1. apply erases_bind.
    - apply erases_alt2; [|easy]. unfold separated_pair. apply erases_bind; [easy|]. intros a. apply erases_bind; [easy|].
      intros _. apply erases_bind; [apply erases_value|]. easy.
    - intros a. apply erases_bind; easy.
  Qed.
  Lemma erases_scomponent : forall f, erases (scomponent f) (component (E := E) f).
  Proof.
    induction f as [|f IH]; cbn [scomponent component]; [easy|]. apply erases_bind; [easy|]. intros n.
    apply erases_bind.
    - intros i. apply erases_till, erases_cut, erases_context, erases_alt2; apply erases_separated; apply erases_map; [easy|apply erases_property].
    - intros [l x]. apply erases_bind; easy.
  Qed.
  Lemma erases_scomponents : erases scomponents_p (components_p (E := E)).
  Proof. intros i. apply erases_many0, erases_all. intros j. apply erases_scomponent. Qed.

  (** ** One property. *)
  Definition head_p : parser E (str * list pparam) :=
    pair (cut (context "property cannot be END or BEGIN" (preceded multispace0 property_key))) parameters.
  Definition value_at (i : str) : option str :=
    match head_p i with
    | IOk r _ => match tag (E := E) [COLON] r with IOk v _ => Some v | _ => None end
    | _ => None
    end.
  Lemma fst_bind : forall A B (p : cparser E A) (f : A -> cparser E B) i, (forall a r, fst (f a r) = 0) -> fst (cbind p f i) = fst (p i).
  Proof. intros A B p f i H. unfold cbind. destruct (p i) as [n [r a|e|e|]]; cbn [fst]; try easy. rewrite H. lia. Qed.
  Lemma fst_cut : forall A (p : cparser E A) i, fst (ccut p i) = fst (p i).
  Proof. intros A p i. unfold ccut. now destruct (p i). Qed.
  Lemma fst_context : forall A w (p : cparser E A) i, fst (ccontext w p i) = fst (p i).
  Proof. intros A w p i. unfold ccontext. now destruct (p i). Qed.
  Lemma fst_map : forall A B (f : A -> B) (p : cparser E A) i, fst (cmap f p i) = fst (p i).
  Proof. intros A B f p i. now apply fst_bind. Qed.
  Lemma fst_alt2 : forall A (p q : cparser E A) i, fst (q i) = 0 -> fst (calt2 p q i) = fst (p i).
  Proof. intros A p q i H. unfold calt2. destruct (p i) as [n [r a|e|e|]], (q i) as [m y]; cbn [fst] in *; lia. Qed.
  Lemma fst_free_bind : forall A B (p : parser E A) (f : A -> cparser E B) i,
    fst (cbind (free p) f i) = match p i with IOk r a => fst (f a r) | _ => 0 end.
  Proof. intros A B p f i. unfold cbind, free. now destruct (p i). Qed.
  Lemma fst_value : forall i, fst (svalue (E := E) i) = value_looks i.
  Proof.
    intros i. unfold svalue. rewrite fst_context. unfold calt3, stake_until, value_looks, take_until, free.
    destruct (find_sub [CR; LF] i) as [[a b]|]; cbn [fst]; [lia|]. destruct (find_sub [LF] i) as [[a b]|]; cbn [fst]; lia.
  Qed.
  Lemma sproperty_fst : forall i, fst (sproperty (E := E) i) = match value_at i with Some v => value_looks v | None => 0 end.
  Proof.
    intros i. unfold sproperty. rewrite fst_context, fst_cut, fst_map.
    rewrite fst_bind by (intros a r; now rewrite fst_bind). rewrite fst_alt2 by easy.
    rewrite fst_free_bind. unfold value_at, head_p. destruct (pair _ parameters i) as [r a|e|e|]; try easy.
    rewrite fst_free_bind. unfold context at 1. destruct (tag [COLON] r) as [r' c|e|e|]; try easy.
    now rewrite fst_bind, fst_value.
  Qed.
  Lemma value_at_text : forall i v, value_at i = Some v -> exists a, i = a ++ COLON :: v.
  Proof.
    intros i v H. unfold value_at in H. destruct (head_p i) as [r a|e|e|] eqn:Hd; try easy.
    destruct (tag [COLON] r) as [r' c|e|e|] eqn:T; try easy. injection H as ->. apply tag_taken in T. subst r.
    unfold head_p in Hd. apply pbind_ok in Hd as (r1 & k & H2 & H3). apply pbind_ok in H3 as (r2 & qs & H3 & H4). injection H4 as -> _.
    apply cut_ok, context_ok in H2. apply pbind_ok in H2 as (r6 & w & H2 & H4). apply multispace0_taken in H2 as [-> _].
    unfold property_key in H4. destruct (_ || _); [easy|]. apply key_taken in H4 as [-> _].
    apply parameters_taken in H3 as (ss & -> & _). exists (w ++ k ++ concat ss). now rewrite <- !app_assoc.
  Qed.
  (** If there is a place for a value, the property is read with that value. *)
  Lemma value_at_read : forall i v, value_at i = Some v -> exists p rest r, property_p (E := E) i = IOk r p /\ (exists x, v = x ++ rest /\ value_cut x rest)
    /\ after_break rest r.
  Proof.
    intros i v H. unfold value_at in H. destruct (head_p i) as [r a|e|e|] eqn:Hd; try easy.
    destruct (tag [COLON] r) as [r' c|e|e|] eqn:T; try easy. injection H as ->.
    unfold property_p, context at 1, cut at 1, pmap at 1, pbind at 1. unfold pair at 1, pbind at 1. unfold alt2, separated_pair.
    fold head_p. unfold pbind at 1. rewrite Hd. unfold pbind at 1. unfold context at 1. rewrite T. unfold pbind at 1.
    destruct (context "property value" _ v) as [rest x|e|e|] eqn:V.
    - apply value_taken in V as [-> V]. unfold pret at 1. unfold pbind at 1. unfold opt.
      destruct (after_break_ex rest) as [q A]. destruct (opt_break _ _ A) as [o O]. unfold opt in O. rewrite O.
      cbn [pret]. destruct a as [k qs]. eexists _, rest, q. split; [reflexivity|]. split; [now exists x|exact A].
    - exfalso. unfold context, alt3, take_until, take_while in V. destruct (find_sub _ v) as [[]|]; [easy|]. destruct (find_sub _ v) as [[]|]; [easy|].
      now destruct (span _ v).
    - exfalso. unfold context, alt3, take_until, take_while in V. destruct (find_sub _ v) as [[]|]; [easy|]. destruct (find_sub _ v) as [[]|]; [easy|].
      now destruct (span _ v).
    - exfalso. unfold context, alt3, take_until, take_while in V. destruct (find_sub _ v) as [[]|]; [easy|]. destruct (find_sub _ v) as [[]|]; [easy|].
      now destruct (span _ v).
  Qed.

  (** ** The equations of the counts. *)
  Definition sbody (f : nat) : cparser E child :=
    ccut (ccontext "component" (calt2 (cline_separated (cmap inl (scomponent f))) (cline_separated (cmap inr sproperty)))).
  Lemma sbody_snd : forall f, erases (sbody f) (body_p (E := E) f).
  Proof.
    intros f. apply erases_cut, erases_context, erases_alt2; apply erases_separated, erases_map; [apply erases_scomponent|apply erases_property].
  Qed.
  Lemma fst_separated : forall A (p : cparser E A) i, no_break i -> fst (cline_separated p i) = fst (p i).
  Proof.
    intros A p i N. destruct (skips_none (E := E) i N) as [l S]. unfold cline_separated. rewrite fst_free_bind, S.
    apply fst_bind. intros a r. now apply fst_bind.
  Qed.
  Definition comp_err (f : nat) (i : str) : bool := match component (E := E) f i with IErr _ => true | _ => false end.
  Lemma sbody_fst : forall f i, no_break i ->
    fst (sbody f i) = fst (scomponent (E := E) f i) + if comp_err f i then fst (sproperty (E := E) i) else 0.
  Proof.
    intros f i N. unfold sbody. rewrite fst_cut, fst_context. unfold calt2.
    pose proof (fst_separated _ (cmap (@inl pcomp pprop) (scomponent f)) i N) as X. rewrite fst_map in X.
    pose proof (fst_separated _ (cmap (@inr pcomp pprop) sproperty) i N) as Y. rewrite fst_map in Y.
    pose proof (erases_separated _ _ _ (erases_map _ _ (@inl pcomp pprop) _ _ (erases_scomponent f)) i) as Z.
    pose proof (separated_none _ (pmap (@inl pcomp pprop) (component f)) i N) as S1. unfold pmap, pbind, pret in S1, Z.
    unfold comp_err. destruct (cline_separated (cmap inl _) i) as [n x]. cbn [fst snd] in *. subst n x.
    destruct (cline_separated (cmap inr _) i) as [m y]. cbn [fst] in Y. subst m.
    destruct (component f i) as [r c|e|e|]; [destruct S1 as (r' & _ & ->)|rewrite S1|rewrite S1|rewrite S1]; cbn [fst]; lia.
  Qed.
  Lemma scomponent_begin : forall f kb n i j, map lower_ascii kb = lit "begin:" -> name_ok n -> name_ends i -> after_breaks i j ->
    fst (scomponent (E := E) (S f) (kb ++ n ++ i)) = fst (cmany_till (S (length j)) (sbody f) (end_p (E := E) n) j).
  Proof.
    intros f kb n i j K Nn M A. cbn [scomponent]. rewrite fst_free_bind.
    rewrite (begin_line kb n i j) by easy. rewrite fst_bind; [reflexivity|]. intros [l x] r. now apply fst_bind.
  Qed.
  Lemma scomponent_not_begin : forall f i, no_break i -> ~ begins i -> fst (scomponent (E := E) f i) = 0.
  Proof.
    intros [|f] i N B; [easy|]. apply keyword_not in B. cbn [scomponent]. rewrite fst_free_bind. unfold line.
    rewrite (line_separated_err _ _ _ _ (from_kind i KTag) (skips_none _ N)); [easy|]. unfold preceded, pbind. now rewrite tag_no_case_err.
  Qed.
  Lemma still_step : forall f m n i, no_break i ->
    fst (cmany_till (S m) (sbody f) (end_p (E := E) n) i) =
    match end_p (E := E) n i with
    | IErr _ => fst (scomponent (E := E) f i) + (if comp_err f i then fst (sproperty (E := E) i) else 0) + match body_p (E := E) f i with
        | IOk r _ => if length r =? length i then 0 else fst (cmany_till m (sbody f) (end_p (E := E) n) r)
        | _ => 0 end
    | _ => 0 end.
  Proof.
    intros f m n i N. cbn [cmany_till]. destruct (end_p n i); try easy. rewrite <- (sbody_fst f i N), <- (sbody_snd f i).
    destruct (sbody f i) as [k x]. cbn [fst snd]. destruct x as [r a|x|x|]; cbn [fst]; try lia. destruct (_ =? _); cbn [fst]; try lia.
    destruct (cmany_till m _ _ r); cbn [fst]; lia.
  Qed.
  Lemma scomponent_skips : forall f i j, after_breaks i j -> scomponent (E := E) (S f) i = scomponent (E := E) (S f) j.
  Proof.
    intros f i j A. cbn [scomponent]. unfold cbind at 1 3, free at 1 3.
    assert (line (lit "BEGIN:") (valid_key_sequence (E := E)) i = line (lit "BEGIN:") valid_key_sequence j) as ->; [|easy].
    unfold line, line_separated, delimited, pbind. destruct (skips_after _ _ A) as [l ->].
    apply after_suffix in A as [_ N]. destruct (skips_none (E := E) _ N) as [l' ->]. easy.
  Qed.

  (** ** The bound by the calls. *)
  Lemma sproperty_le : forall i, fst (sproperty (E := E) i) <= 2 * (length i + 1).
  Proof.
    intros i. rewrite sproperty_fst. destruct (value_at i) as [v|] eqn:V; [|lia]. destruct (value_at_text i v V) as [a ->].
    pose proof (value_looks_le v). rewrite app_length. cbn [length]. lia.
  Qed.
  Lemma still_calls : forall f L, (forall i, no_break i -> length i <= L ->
      fst (scomponent (E := E) f i) + 2 * (L + 1) <= 2 * (L + 1) * fst (ccomponent (E := E) f i)) ->
    forall m n i, no_break i -> length i <= L ->
      fst (cmany_till m (sbody f) (end_p (E := E) n) i) <= 2 * (L + 1) * fst (cmany_till m (cbody f) (end_p (E := E) n) i).
  Proof.
    intros f L Hf. induction m as [|m IH]; intros n i N Li; [cbn; lia|]. rewrite still_step, ctill_step by easy.
    destruct (end_p n i) as [r x|e|e|]; try lia. pose proof (Hf i N Li) as H1. pose proof (sproperty_le i) as H2.
    assert (H3 : (if comp_err f i then fst (sproperty (E := E) i) else 0) <= 2 * (L + 1)) by (destruct (comp_err f i); lia).
    pose proof (body_cases f i N) as B.
    assert (X : match body_p (E := E) f i with IOk r _ => if length r =? length i then 0 else fst (cmany_till m (sbody f) (end_p (E := E) n) r) | _ => 0 end
      <= 2 * (L + 1) * match body_p (E := E) f i with IOk r _ => if length r =? length i then 0 else fst (cmany_till m (cbody f) (end_p (E := E) n) r) | _ => 0 end).
    { destruct (component f i) as [r c|e1|e1|].
      - destruct B as (Lr & S & Nr & ->). replace (_ =? _) with false by lia. apply IH; [easy|lia].
      - destruct B as [_ [(p & r & I & ->)|[R [e2 ->]]]]; [|lia]. destruct (length r =? length i) eqn:Q; [lia|].
        destruct (item_suffix _ _ _ I) as [S Nr]. apply suffix_length in S. apply IH; [easy|lia].
      - destruct B as [e2 ->]. lia.
      - rewrite B. lia. }
    lia.
  Qed.
  Lemma scomponent_calls : forall f i L, no_break i -> length i <= L ->
    fst (scomponent (E := E) f i) + 2 * (L + 1) <= 2 * (L + 1) * fst (ccomponent (E := E) f i).
  Proof.
    induction f as [|f IH]; intros i L N Li; [cbn [scomponent ccomponent]; unfold free, tick; cbn [fst]; lia|].
    destruct (starts_with (lit "begin:") (map lower_ascii i)) eqn:Q.
    - apply keyword_spec in Q as (kb & x & K & ->). destruct (longest_name_ex x) as (n & j & -> & Nn & M).
      destruct (after_breaks_ex j) as [r A]. rewrite (scomponent_begin f kb n j r), (ccomponent_begin f kb n j r) by easy.
      destruct (after_suffix _ _ A) as [Sf Nr]. apply suffix_length in Sf. rewrite !app_length in Li.
      pose proof (still_calls f L (fun i => IH i L) (S (length r)) n r Nr ltac:(lia)). lia.
    - apply keyword_not in Q. rewrite (scomponent_not_begin _ i N Q), (ccomponent_not_begin f i i (skips_none _ N) Q). lia.
  Qed.
  Lemma slook_empty : exists e, scomponent (E := E) (S (length (@nil N))) [] = (0, IErr e).
  Proof. now eexists. Qed.
  Lemma scomponents_first : forall i, fst (scomponents_p (E := E) i) = fst (scomponent (E := E) (S (length i)) i)
    /\ fst (ccomponent (E := E) (S (length i)) i) <= fst (ccomponents_p (E := E) i).
  Proof.
    intros i. split.
    - unfold scomponents_p. cbn [cmany0]. unfold call_consuming at 1, scomponent_p at 1. destruct (scomponent (S (length i)) i) as [n x].
      destruct x as [[|c r] a|e|e|]; cbn [fst]; try lia. destruct (length (@nil N) =? length i) eqn:Q; [easy|].
      destruct (length i) as [|m]; [discriminate Q|]. cbn [cmany0]. unfold call_consuming at 1, scomponent_p at 1.
      destruct slook_empty as [e ->]. cbn [fst]. lia.
    - unfold ccomponents_p. cbn [cmany0]. unfold call_consuming at 1, ccomponent_p at 1. destruct (ccomponent (S (length i)) i) as [n x].
      destruct x as [[|c r] a|e|e|]; cbn [fst]; try lia. destruct (length (@nil N) =? length i); cbn [fst]; [lia|].
      destruct (cmany0 _ _ []); cbn [fst]; lia.
  Qed.
  Lemma looks_calls : forall i, fst (scomponents_p (E := E) i) <= 2 * (length i + 1) * fst (ccomponents_p (E := E) i).
  Proof.
    intros i. destruct (scomponents_first i) as [-> C]. destruct (after_breaks_ex i) as [j A].
    rewrite (ccomponent_skips _ i j A) in C. rewrite (scomponent_skips _ i j A). destruct (after_suffix _ _ A) as [S N]. apply suffix_length in S.
    pose proof (scomponent_calls (1 + length i) j (length i) N S). cbn [Nat.add] in *. nia.
  Qed.

  (** ** The bound if there is a CR LF ahead. *)
  Lemma ahead_suffix : forall r i, suffix r i -> crlf_ahead i -> crlf_ahead r.
  Proof. intros r i [p ->] H a v E0. apply (H (p ++ a)). now rewrite E0, <- app_assoc. Qed.
  Lemma sproperty_pays : forall i, crlf_ahead i ->
    match property_p (E := E) i with IOk r _ => fst (sproperty (E := E) i) + length r <= length i | _ => fst (sproperty (E := E) i) = 0 end.
  Proof.
    intros i C. rewrite sproperty_fst. destruct (value_at i) as [v|] eqn:V.
    - destruct (value_at_text i v V) as [a Ei]. specialize (C a v Ei). destruct (value_at_read i v V) as (p & rest & r & -> & (x & -> & Vc) & A).
      assert (S : length r <= length rest).
      { destruct A as [(b & _ & ->)|[_ ->]]; [rewrite app_length|]; lia. }
      unfold value_looks. destruct (find_sub [CR; LF] (x ++ rest)) as [[u w]|] eqn:F.
      + rewrite (visited_some _ _ _ _ F). rewrite Ei, app_length. cbn [length]. rewrite app_length.
        assert (length u = length x); [|lia].
        destruct Vc as [[[z ->] Nx]|[(_ & _ & Nc)|[-> Nl]]].
        * pose proof (find_crlf x z Nx) as F'. cbn [app] in F, F'. rewrite F in F'. now injection F' as -> _.
        * destruct C as (c1 & c2 & C). exfalso. apply Nc. now exists c1, c2.
        * exfalso. destruct C as (c1 & c2 & C). apply Nl. rewrite app_nil_r in C. rewrite C. apply in_or_app. right. right. now left.
      + exfalso. destruct C as (c1 & c2 & C). now apply (find_sub_none _ _ F c1 c2).
    - destruct (property_p i) as [r p|e|e|] eqn:P; try easy.
      apply property_taken in P as (x & -> & _). rewrite app_length. lia.
  Qed.
  Lemma still_bound : forall f, (forall i, no_break i -> crlf_ahead i -> CostProofs.within (fst (scomponent (E := E) f i)) (component (E := E) f i) i
      /\ (begins i -> fst (scomponent (E := E) f i) = 0 \/
          exists r, suffix r i /\ length r < length i /\ fst (scomponent (E := E) f i) <= budget r)) ->
    forall m n i, no_break i -> crlf_ahead i ->
      CostProofs.within (fst (cmany_till m (sbody f) (end_p (E := E) n) i)) (many_till m (body_p (E := E) f) (end_p n) i) i.
  Proof.
    intros f Hf. induction m as [|m IH]; intros n i N C; [cbn; lia|]. rewrite still_step by easy. cbn [many_till].
    pose proof (end_cases (E := E) n i N) as En. destruct (end_p n i) as [r x|e|e|]; try (cbn; lia).
    - destruct En as (ke & j & _ & -> & A). apply after_suffix in A as [A _]. cbn [within Nat.add]. apply budget_le.
      eapply suffix_trans; [exact A|]. exists (ke ++ n). now rewrite <- app_assoc.
    - pose proof (body_cases f i N) as B. destruct (Hf i N C) as [W K]. unfold comp_err. destruct (component f i) as [r c|e1|e1|].
      + destruct B as (L & S & Nr & ->). replace (_ =? _) with false by lia. specialize (IH n r Nr (ahead_suffix _ _ S C)). cbn [within] in W.
        pose proof (budget_le _ _ S). destruct (many_till m _ _ r) as [s [l x]|x|x|]; cbn [within] in *; lia.
      + pose proof (sproperty_pays i C) as P. destruct B as [D [(p & r & I & ->)|[R [e2 ->]]]].
        * destruct (item_suffix _ _ _ I) as [S Nr]. destruct I as (j & I & A). pose proof (proj2 (prop_reads_iff (E := E) _ _ _) I) as I'. rewrite I' in P.
          destruct (after_suffix _ _ A) as [Sj _]. apply suffix_length in Sj. pose proof (suffix_length _ _ S) as L0.
          destruct (length r =? length i) eqn:Q; [cbn [within] in *; lia|].
          assert (X : fst (scomponent (E := E) f i) + fst (sproperty (E := E) i) + budget r <= budget i).
          { assert (Y : fst (sproperty (E := E) i) + budget r <= 2 ^ soft_begins r * (length i + 1)).
            { unfold budget. pose proof (pow_pos (soft_begins r)). nia. }
            destruct D as [D|D].
            - rewrite (scomponent_not_begin f i N D). unfold budget in *. pose proof (soft_suffix _ _ S).
              assert (2 ^ soft_begins r <= 2 ^ soft_begins i) by (apply Nat.pow_le_mono_r; lia). nia.
            - apply reads_shrink in D. destruct (soft_begin i) eqn:Sb.
              + pose proof (soft_shorter _ _ S ltac:(lia) Sb) as Z1. destruct (soft_begins i) as [|k] eqn:Sk; [lia|].
                assert (P1 : 2 ^ soft_begins r <= 2 ^ k) by (apply Nat.pow_le_mono_r; lia).
                assert (Bi : budget i = (2 ^ k + 2 ^ k) * (length i + 1)) by (unfold budget; rewrite Sk; cbn [Nat.pow]; lia).
                destruct (K D) as [->|(s & S' & L' & M)]; [nia|].
                pose proof (soft_shorter _ _ S' L' Sb) as Z2. rewrite Sk in Z2.
                assert (P2 : 2 ^ soft_begins s <= 2 ^ k) by (apply Nat.pow_le_mono_r; lia).
                assert (budget s <= 2 ^ k * (length i + 1)) by (unfold budget; nia). nia.
              + destruct I as (R & _). destruct R. now apply begins_hard. }
          specialize (IH n r Nr (ahead_suffix _ _ S C)).
          destruct (many_till m _ _ r) as [s [l x]|x|x|]; cbn [within] in *; lia.
        * destruct (property_p i) as [r p|e3|e3|] eqn:Pr.
          -- apply prop_reads_iff in Pr. destruct Pr as [Pr _]. easy.
          -- cbn [within] in *. lia.
          -- cbn [within] in *. lia.
          -- cbn [within] in *. lia.
      + destruct B as [e2 ->]. cbn [within] in *; lia.
      + rewrite B. cbn [within] in *; lia.
  Qed.
  Lemma scomponent_bound : forall f i, no_break i -> crlf_ahead i -> CostProofs.within (fst (scomponent (E := E) f i)) (component (E := E) f i) i
      /\ (begins i -> fst (scomponent (E := E) f i) = 0 \/
          exists r, suffix r i /\ length r < length i /\ fst (scomponent (E := E) f i) <= budget r).
  Proof.
    induction f as [|f IH]; intros i N C; [split; [cbn; pose proof (budget_pos i); lia|now left]|].
    destruct (starts_with (lit "begin:") (map lower_ascii i)) eqn:Q.
    - apply keyword_spec in Q as (kb & x & K & ->). destruct (longest_name_ex x) as (n & j & -> & Nn & M).
      destruct (after_breaks_ex j) as [r A]. rewrite (scomponent_begin f kb n j r) by easy. rewrite component_S. unfold pbind at 1.
      rewrite (begin_line kb n j r) by easy. unfold pbind at 1.
      destruct (after_suffix _ _ A) as [Sf Nr].
      assert (S' : suffix r (kb ++ n ++ j)) by (destruct Sf as [b ->]; exists (kb ++ n ++ b); now rewrite <- !app_assoc).
      pose proof (still_bound f IH (S (length r)) n r Nr (ahead_suffix _ _ S' C)) as B.
      pose proof (body_sound (E := E) f (component_sound f) (S (length r)) n r Nr) as B'.
      assert (L : length r < length (kb ++ n ++ j)).
      { apply suffix_length in Sf. rewrite !app_length. destruct kb; [easy|]. cbn [length]. lia. }
      pose proof (budget_lt _ _ S' L). split.
      + destruct (many_till _ _ _ r) as [r2 [l y]|e|e|]; cbn [within] in B |- *; try lia.
        assert (no_break r2) by now apply reads_shrink in B'. unfold pbind. rewrite lfs_none by easy. cbn [within pret]. lia.
      + intros _. right. exists r. split; [easy|]. split; [easy|].
        destruct (many_till _ _ _ r) as [r2 [l y]|e|e|]; cbn [within] in B; lia.
    - destruct (component_not_begin f i i (skips_none _ N) Q) as [e ->]. apply keyword_not in Q.
      rewrite (scomponent_not_begin (S f) i N Q). pose proof (budget_pos i). split; [cbn; lia|now left].
  Qed.
  Lemma looks_ahead : forall i, crlf_ahead i -> fst (scomponents_p (E := E) i) <= 2 ^ soft_begins i * (length i + 1).
  Proof.
    intros i C. destruct (scomponents_first i) as [-> _]. destruct (after_breaks_ex i) as [j A].
    rewrite (scomponent_skips _ i j A). destruct (after_suffix _ _ A) as [S N]. pose proof (budget_le _ _ S) as L. fold (budget i).
    destruct (scomponent_bound (1 + length i) j N (ahead_suffix _ _ S C)) as [W _]. cbn [Nat.add] in W.
    destruct (component _ j); cbn [within] in W; lia.
  Qed.
End Searching.
