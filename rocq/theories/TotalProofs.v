(** Termination of the parser, positions of rests and errors. *)
From Verif Require Import Str StrFacts Spec Nom Parser SpecDoc ParserProofs.
From Coq Require Import ZifyBool ZifyNat ZifyN.

Lemma suffix_refl : forall i, suffix i i.
Proof. intros i. now exists []. Qed.
Lemma suffix_trans : forall a b c, suffix a b -> suffix b c -> suffix a c.
Proof. intros a b c [p ->] [q ->]. exists (q ++ p). now rewrite app_assoc. Qed.
Lemma suffix_length : forall a b, suffix a b -> length a <= length b.
Proof. intros a b [p ->]. rewrite app_length. lia. Qed.
Lemma suffix_skipn : forall n i, suffix (skipn n i) i.
Proof. intros n i. exists (firstn n i). symmetry. apply firstn_skipn. Qed.
Lemma suffix_cons : forall a c i, suffix a i -> suffix a (c :: i).
Proof. intros a c i [p ->]. now exists (c :: p). Qed.

Section Total.
  Context {U : Unicode} {E : Type} {PE : PErr E}.
  (** Where an error points to. *)
  Variable loc : str -> E -> Prop.
  Hypothesis loc_kind : forall i k, loc i (from_kind i k).
  Hypothesis loc_append : forall i k e, loc i e -> loc i (append_err i k e).
  Hypothesis loc_context : forall i c e, loc i e -> loc i (add_context i c e).
  Hypothesis loc_mono : forall i j e, suffix j i -> loc j e -> loc i e.

  (** A parser that ends, leaves a suffix of its input and whose errors point into its input; [Q] says
      something of its results. *)
  Definition sound {A} (Q : A -> Prop) (i : str) (r : ires E A) : Prop :=
    match r with
    | IOk r a => suffix r i /\ Q a
    | IErr e | IFail e => loc i e
    | IFuel => False
    end.
  Definition good {A} (Q : A -> Prop) (p : parser E A) : Prop := forall i, sound Q i (p i).
  (** On inputs shorter than [n]. *)
  Definition good_to {A} (n : nat) (Q : A -> Prop) (p : parser E A) : Prop :=
    forall i, length i < n -> sound Q i (p i).
  Lemma good_good_to : forall A n (Q : A -> Prop) p, good Q p -> good_to n Q p.
  Proof. intros A n Q p H i _. apply H. Qed.
  Lemma sound_mono : forall A (Q : A -> Prop) i j r, suffix j i -> sound Q j r -> sound Q i r.
  Proof.
    intros A Q i j [r a|e|e|] S; cbn; try easy; try (now apply loc_mono).
    intros [H1 H2]. split; [now apply (suffix_trans _ j)|easy].
  Qed.
  Lemma sound_weak : forall A (P Q : A -> Prop) i r, (forall a, P a -> Q a) -> sound P i r -> sound Q i r.
  Proof. intros A P Q i [r a|e|e|] H; cbn; auto. intros []. auto. Qed.

  Lemma good_bind : forall A B n (P : A -> Prop) (Q : B -> Prop) p f, good_to n P p ->
    (forall a, P a -> good_to n Q (f a)) -> good_to n Q (pbind p f).
  Proof.
    intros A B n P Q p f Hp Hf i L. unfold pbind. specialize (Hp i L). destruct (p i) as [r a|e|e|]; try easy.
    destruct Hp as [S H]. apply (sound_mono _ _ _ r _ S). apply Hf; [easy|]. apply suffix_length in S. lia.
  Qed.
  Lemma good_ret : forall A n (Q : A -> Prop) a, Q a -> good_to n Q (pret a).
  Proof. intros A n Q a H i _. split; [apply suffix_refl|easy]. Qed.
  Lemma good_map : forall A B n (P : A -> Prop) (Q : B -> Prop) f p, good_to n P p ->
    (forall a, P a -> Q (f a)) -> good_to n Q (pmap f p).
  Proof. intros A B n P Q f p Hp Hf. apply (good_bind _ _ _ P); [easy|]. intros a H. apply good_ret. auto. Qed.
  Lemma good_preceded : forall A B n (P : A -> Prop) (Q : B -> Prop) p q, good_to n P p -> good_to n Q q ->
    good_to n Q (preceded p q).
  Proof. intros. now apply (good_bind _ _ _ P). Qed.
  Lemma good_pair : forall A B n (P : A -> Prop) (Q : B -> Prop) p q, good_to n P p -> good_to n Q q ->
    good_to n (fun x => P (fst x) /\ Q (snd x)) (pair p q).
  Proof.
    intros. apply (good_bind _ _ _ P); [easy|]. intros a Ha. apply (good_bind _ _ _ Q); [easy|]. intros b Hb.
    now apply good_ret.
  Qed.
  Lemma good_separated : forall A B C n (P : A -> Prop) (R : B -> Prop) (Q : C -> Prop) p s q,
    good_to n P p -> good_to n R s -> good_to n Q q ->
    good_to n (fun x => P (fst x) /\ Q (snd x)) (separated_pair p s q).
  Proof.
    intros. apply (good_bind _ _ _ P); [easy|]. intros a Ha. apply (good_bind _ _ _ R); [easy|]. intros b Hb.
    apply (good_bind _ _ _ Q); [easy|]. intros c Hc. now apply good_ret.
  Qed.
  Lemma good_delimited : forall A B C n (P : A -> Prop) (Q : B -> Prop) (R : C -> Prop) p q s,
    good_to n P p -> good_to n Q q -> good_to n R s -> good_to n Q (delimited p q s).
  Proof.
    intros. apply (good_bind _ _ _ P); [easy|]. intros a Ha. apply (good_bind _ _ _ Q); [easy|]. intros b Hb.
    apply (good_bind _ _ _ R); [easy|]. intros c Hc. now apply good_ret.
  Qed.
  Lemma good_alt2 : forall A n (Q : A -> Prop) p q, good_to n Q p -> good_to n Q q -> good_to n Q (alt2 p q).
  Proof.
    intros A n Q p q Hp Hq i L. unfold alt2. specialize (Hp i L). destruct (p i) as [r a|e|e|]; try easy.
    specialize (Hq i L). destruct (q i) as [r a|e'|e'|]; try easy. cbn in *. auto.
  Qed.
  Lemma good_alt3 : forall A n (Q : A -> Prop) p q s, good_to n Q p -> good_to n Q q -> good_to n Q s ->
    good_to n Q (alt3 p q s).
  Proof.
    intros A n Q p q s Hp Hq Hs i L. unfold alt3. specialize (Hp i L). destruct (p i) as [r a|e|e|]; try easy.
    specialize (Hq i L). destruct (q i) as [r a|e'|e'|]; try easy.
    specialize (Hs i L). destruct (s i) as [r a|e''|e''|]; try easy. cbn in *. auto.
  Qed.
  Lemma good_opt : forall A n (P : A -> Prop) p, good_to n P p ->
    good_to n (fun x => match x with Some a => P a | None => True end) (opt p).
  Proof.
    intros A n P p Hp i L. unfold opt. specialize (Hp i L). destruct (p i) as [r a|e|e|]; try easy.
    split; [apply suffix_refl|easy].
  Qed.
  Lemma good_cut : forall A n (Q : A -> Prop) p, good_to n Q p -> good_to n Q (cut p).
  Proof. intros A n Q p Hp i L. unfold cut. specialize (Hp i L). now destruct (p i). Qed.
  Lemma good_context : forall A n (Q : A -> Prop) c p, good_to n Q p -> good_to n Q (context c p).
  Proof.
    intros A n Q c p Hp i L. unfold context. specialize (Hp i L). destruct (p i); cbn in *; auto.
  Qed.
  Lemma good_all_consuming : forall A n (Q : A -> Prop) p, good_to n Q p -> good_to n Q (all_consuming p).
  Proof.
    intros A n Q p Hp i L. unfold all_consuming. specialize (Hp i L). destruct (p i) as [[|c r] a|e|e|]; try easy.
    destruct Hp as [S _]. cbn. apply (loc_mono _ (c :: r) _ S), loc_kind.
  Qed.
  Lemma good_many0 : forall A n (Q : A -> Prop) p, good_to n Q p -> forall i, length i < n ->
    forall fuel, length i < fuel -> sound (Forall Q) i (many0 fuel p i).
  Proof.
    intros A n Q p Hp i L fuel. revert i L. induction fuel as [|f IH]; intros i L F; [lia|]. cbn [many0].
    pose proof (Hp i L) as H. destruct (p i) as [r a|e|e|]; try easy.
    - destruct H as [S H]. destruct (length r =? length i) eqn:Q1; [apply loc_kind|].
      pose proof (suffix_length _ _ S). specialize (IH r ltac:(lia) ltac:(lia)).
      destruct (many0 f p r) as [r' l|e|e|]; try easy; cbn in *; try (now apply (loc_mono _ r)).
      destruct IH as [S' F']. split; [now apply (suffix_trans _ r)|now constructor].
    - split; [apply suffix_refl|constructor].
  Qed.
  Lemma good_many0' : forall A n (Q : A -> Prop) p, good_to n Q p ->
    good_to n (Forall Q) (fun i => many0 (S (length i)) p i).
  Proof. intros A n Q p H i L. apply (good_many0 _ n); auto. Qed.
  Lemma good_many_till : forall A B n (Q : A -> Prop) (R : B -> Prop) p g, good_to n Q p -> good_to n R g ->
    forall i, length i < n -> forall fuel, length i < fuel ->
    sound (fun x => Forall Q (fst x) /\ R (snd x)) i (many_till fuel p g i).
  Proof.
    intros A B n Q R p g Hp Hg i L fuel. revert i L. induction fuel as [|f IH]; intros i L F; [lia|]. cbn [many_till].
    pose proof (Hg i L) as H. destruct (g i) as [r b|e|e|]; try easy.
    - destruct H. split; [easy|]. split; [constructor|easy].
    - pose proof (Hp i L) as H'. destruct (p i) as [r a|e'|e'|]; try easy.
      + destruct H' as [S H']. destruct (length r =? length i) eqn:Q1; [now apply (loc_mono _ r), loc_kind|].
        pose proof (suffix_length _ _ S). specialize (IH r ltac:(lia) ltac:(lia)).
        destruct (many_till f p g r) as [r' [l b]|e'|e'|]; try easy; cbn in *; try (now apply (loc_mono _ r)).
        destruct IH as [S' [F' R']]. split; [now apply (suffix_trans _ r)|]. split; [now constructor|easy].
      + cbn in *. auto.
  Qed.

  Lemma good_tag : forall n t, good_to n (fun _ => True) (tag t).
  Proof. intros n t i _. unfold tag. destruct (starts_with t i); [|apply loc_kind]. split; [apply suffix_skipn|easy]. Qed.
  Lemma good_tag_no_case : forall n t, good_to n (fun _ => True) (tag_no_case t).
  Proof. intros n t i _. unfold tag_no_case. destruct (starts_with _ _); [|apply loc_kind]. split; [apply suffix_skipn|easy]. Qed.
  Lemma good_line_ending : forall n, good_to n (fun _ => True) line_ending.
  Proof.
    intros n i _. unfold line_ending. destruct (starts_with [LF] i); [split; [apply suffix_skipn|easy]|].
    destruct (starts_with [CR; LF] i); [split; [apply suffix_skipn|easy]|apply loc_kind].
  Qed.
  Lemma good_take_while : forall n f, good_to n (fun s => forallb f s = true) (take_while f).
  Proof.
    intros n f i _. unfold take_while. destruct (span f i) as [a r] eqn:H. apply span_spec in H as (-> & H & _).
    split; [now exists a|easy].
  Qed.
  Lemma good_take_while1 : forall n k f, good_to n (fun s => forallb f s = true /\ s <> []) (take_while1 k f).
  Proof.
    intros n k f i _. unfold take_while1. destruct (span f i) as [a r] eqn:H. apply span_spec in H as (-> & H & _).
    destruct a as [|c a]; [apply loc_kind|]. split; [now exists (c :: a)|easy].
  Qed.
  Lemma good_take_until : forall n t, good_to n (fun _ => True) (take_until t).
  Proof.
    intros n t i _. unfold take_until. destruct (find_sub t i) as [[a r]|] eqn:H; [|apply loc_kind].
    apply find_sub_some in H as [-> _]. split; [now exists a|easy].
  Qed.
  Lemma good_eof : forall n, good_to n (fun _ => True) eof.
  Proof. intros n [|c i] _; [split; [apply suffix_refl|easy]|apply loc_kind]. Qed.

  Lemma good_weak : forall A n (P Q : A -> Prop) p, (forall a, P a -> Q a) -> good_to n P p -> good_to n Q p.
  Proof. intros A n P Q p H G i L. eapply sound_weak; [exact H|]. auto. Qed.
  Lemma good_true : forall A n (P : A -> Prop) p, good_to n P p -> good_to n (fun _ => True) p.
  Proof. intros A n P p. now apply good_weak. Qed.

  (** ** The parsers *)

  Lemma good_key : forall n, good_to n name_ok valid_key_sequence.
  Proof. intros n. eapply good_weak; [|apply good_take_while]. intros a. apply name_ok_spec. Qed.
  Lemma good_property_key : forall n, good_to n name_ok property_key.
  Proof.
    intros n i L. unfold property_key. destruct (starts_with _ _ || starts_with _ _); [apply loc_kind|]. now apply (good_key n).
  Qed.
  Lemma good_line_separated : forall A n (Q : A -> Prop) p, good_to n Q p -> good_to n Q (line_separated p).
  Proof.
    intros A n Q p H. eapply good_delimited; [|exact H|];
      apply (good_many0' _ n (fun _ => True)), good_line_ending.
  Qed.
  Lemma good_line : forall A n (Q : A -> Prop) t p, good_to n Q p -> good_to n Q (line t p).
  Proof. intros A n Q t p H. apply good_line_separated. eapply good_preceded; [apply good_tag_no_case|easy]. Qed.
  Lemma good_param_value : forall n, good_to n (fun _ => True) param_value.
  Proof.
    intros n. apply good_alt3; [apply good_eof| |].
    - eapply good_delimited; try apply good_tag. eapply good_true, good_take_while1.
    - eapply good_true, good_take_while1.
  Qed.
  Lemma good_parameter : forall n, good_to n param_keyed parameter_p.
  Proof.
    intros n. apply good_alt2.
    - eapply (good_map _ _ n (fun x => name_ok (fst x) /\ True)).
      + eapply good_preceded; [eapply good_true, good_pair; [apply good_tag|eapply good_true, good_take_while]|].
        apply (good_separated _ _ _ n name_ok (fun _ => True) (fun _ => True)).
        * apply good_key.
        * apply good_tag.
        * eapply good_map; [apply good_opt, good_param_value|easy].
      + intros [k v] [H _]. exact H.
    - eapply (good_map _ _ n (fun x => name_ok (fst x) /\ True)).
      + apply (good_pair _ _ n name_ok (fun _ => True)).
        * eapply good_preceded; [eapply good_true, good_pair; [apply good_tag|eapply good_true, good_take_while]|apply good_key].
        * eapply good_map; [apply good_opt; eapply good_preceded; [apply good_tag|apply good_param_value]|easy].
      + intros [k v] [H _]. exact H.
  Qed.
  Lemma good_parameters : forall n, good_to n (Forall param_keyed) parameters.
  Proof. intros n. apply good_many0', good_parameter. Qed.
  Lemma good_property : forall n, good_to n prop_keyed property_p.
  Proof.
    intros n. apply good_context, good_cut.
    eapply (good_map _ _ n (fun x => (name_ok (fst (fst (fst x))) /\ Forall param_keyed (snd (fst (fst x)))) /\ True)).
    - apply (good_pair _ _ n (fun x : (str * list pparam) * str => name_ok (fst (fst x)) /\ Forall param_keyed (snd (fst x))) (fun _ => True)).
      + apply good_alt2.
        * eapply good_weak; [|eapply (good_separated _ _ _ n (fun x : str * list pparam => name_ok (fst x) /\ Forall param_keyed (snd x)))].
          -- intros a [H _]. exact H.
          -- apply good_pair; [|apply good_parameters]. apply good_cut, good_context.
             eapply good_preceded; [eapply good_true, good_take_while|apply good_property_key].
          -- apply good_context, good_tag.
          -- apply good_context, good_alt3; try apply good_take_until. eapply good_true, good_take_while.
        * apply good_context. eapply good_map; [apply good_key|]. intros a H. cbn. auto.
      + eapply good_true, good_opt, good_line_ending.
    - intros [[[name ps] v] z] [H _]. exact H.
  Qed.
  Definition child_keyed (x : child) : Prop := match x with inl c => comp_keyed c | inr p => prop_keyed p end.
  Lemma children_keyed : forall l, Forall child_keyed l ->
    Forall prop_keyed (children_props l) /\ Forall comp_keyed (children_comps l).
  Proof.
    induction 1 as [|[c|p] l H _ [IH1 IH2]]; unfold children_props, children_comps in *; cbn [flat_map app]; auto.
  Qed.

  Lemma line_shorter : forall A t (p : parser E A) i r a, t <> [] -> good (fun _ => True) p -> line t p i = IOk r a ->
    length r < length i.
  Proof.
    intros A t p i r a T G. unfold line, line_separated, delimited, pbind, preceded, pbind.
    pose proof (good_many0' _ (S (length i)) (fun _ => True) _ (good_line_ending _) i ltac:(lia)) as M. cbv beta in M.
    destruct (many0 (S (length i)) line_ending i) as [r1 l1|e|e|]; try easy. destruct M as [S1 _]. apply suffix_length in S1.
    unfold tag_no_case. destruct (starts_with (map lower_ascii t) (map lower_ascii r1)) eqn:W; [|easy].
    assert (L : length (skipn (length t) r1) < length r1).
    { rewrite skipn_length. apply starts_with_spec in W as [x W]. apply (f_equal (@length N)) in W.
      rewrite app_length, !map_length in W. destruct t; [easy|]. cbn [length] in *. lia. }
    specialize (G (skipn (length t) r1)). destruct (p (skipn (length t) r1)) as [r2 a2|e|e|]; try easy.
    destruct G as [S2 _]. apply suffix_length in S2.
    pose proof (good_many0' _ (S (length r2)) (fun _ => True) _ (good_line_ending _) r2 ltac:(lia)) as M. cbv beta in M.
    destruct (many0 (S (length r2)) line_ending r2) as [r3 l3|e|e|]; try easy. destruct M as [S3 _]. apply suffix_length in S3.
    intros H. injection H as <- <-. lia.
  Qed.
  Lemma good_body : forall n f, good_to n comp_keyed (component f) ->
    good_to n child_keyed (cut (context "component"
      (alt2 (line_separated (pmap inl (component f))) (line_separated (pmap inr property_p))))).
  Proof.
    intros n f H. apply good_cut, good_context, good_alt2; apply good_line_separated.
    - eapply good_map; [exact H|easy].
    - eapply good_map; [apply good_property|easy].
  Qed.
  Lemma good_component : forall fuel, good_to fuel comp_keyed (component fuel).
  Proof.
    induction fuel as [|f IH]; intros i L; [lia|]. cbn [component]. unfold pbind at 1.
    pose proof (good_line _ (S f) name_ok (lit "BEGIN:") _ (good_key _) i L) as H.
    destruct (line (lit "BEGIN:") valid_key_sequence i) as [r name|e|e|] eqn:Q; try easy.
    apply line_shorter in Q; [|easy|intros j; exact (good_true _ (S (length j)) name_ok _ (good_key _) j ltac:(lia))].
    destruct H as [S H]. apply (sound_mono _ _ _ r _ S).
    apply (good_bind _ _ f (fun x => Forall child_keyed (fst x) /\ True)).
    - intros j Lj. apply (good_many_till _ _ f child_keyed (fun _ => True)); [now apply good_body| |lia|lia].
      apply good_line, good_cut, good_context, good_tag.
    - intros [body x] [Hb _]. apply (good_bind _ _ f (Forall (fun _ => True))); [apply good_many0', good_tag|].
      intros _ _. apply good_ret. apply children_keyed in Hb as [Hb1 Hb2]. now constructor.
    - lia.
  Qed.
  Lemma good_component_p : good comp_keyed component_p.
  Proof. intros i. apply (good_component (S (length i))). lia. Qed.
  Lemma good_components : good (Forall comp_keyed) components_p.
  Proof.
    intros i. unfold components_p. apply (good_many0 _ (S (length i))); [|lia|lia].
    apply good_all_consuming, good_good_to, good_component_p.
  Qed.
End Total.
