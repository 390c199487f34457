(** What the entry points of the parser answer. *)
From Verif Require Import Str StrFacts Spec ValueTypes Property Chrono DateTime Component Calendar Nom Parser SpecDoc
  ParserProofs TotalProofs.
From Coq Require Import ZifyBool ZifyNat ZifyN.

Section Reads.
  Context {U : Unicode} {E : Type} {PE : PErr E}.

  Lemma component_total : forall i, match component_p (E := E) i with
    | IOk r _ => suffix r i /\ length r < length i | IFuel => False | _ => True end.
  Proof.
    intros i. pose proof (good_component_p (fun _ _ => True) ltac:(easy) ltac:(easy) ltac:(easy) ltac:(easy) i) as G.
    unfold sound in G. destruct (component_p i) as [r c|e|e|] eqn:Q; try easy. split; [apply G|].
    unfold component_p in Q. cbn [component] in Q. unfold pbind at 1 in Q.
    destruct (line (lit "BEGIN:") valid_key_sequence i) as [r1 n|e|e|] eqn:L; try easy.
    apply (line_shorter (fun _ _ => True)) in L; try easy.
    2:{ intros j. apply (good_true _ _ (S (length j)) name_ok); [now apply good_key|lia]. }
    unfold pbind at 1 in Q.
    match type of Q with context [many_till ?f ?p ?g ?x] => assert (M : sound (fun _ _ => True)
      (fun y => Forall child_keyed (fst y) /\ True) x (many_till f p g x)) end.
    { apply (good_many_till (fun _ _ => True)) with (n := length i) (R := fun _ => True); try easy; try lia.
      - apply good_body; try easy. now apply good_component.
      - apply good_line; try easy. apply good_cut, good_context; try easy. now apply good_tag. }
    destruct (many_till _ _ _ r1) as [r2 [bs x]|e|e|]; try easy. destruct M as [M _].
    unfold pbind in Q.
    assert (M2 : sound (fun _ _ => True) (Forall (fun _ => True)) r2 (many0 (S (length r2)) (tag (E := E) [LF]) r2)).
    { apply (good_many0' (fun _ _ => True)) with (n := S (length r2)); try easy; try lia. now apply good_tag. }
    destruct (many0 _ _ r2) as [r3 l3|e|e|]; try easy. destruct M2 as [M2 _]. injection Q as <- <-.
    apply suffix_length in M, M2. lia.
  Qed.

  Lemma components_read : forall i, components_p (E := E) i =
    match component_p (E := E) i with
    | IOk [] c => IOk [] [c]
    | IFail e => IFail e
    | IFuel => IFuel
    | _ => IOk i []
    end.
  Proof.
    intros i. unfold components_p. cbn [many0]. unfold all_consuming at 1. pose proof (component_total i) as T.
    destruct (component_p i) as [[|d r] c|e|e|]; try easy. destruct T as [_ T]. cbn [length] in *.
    replace (0 =? length i) with false by lia. destruct (length i) as [|n]; [lia|]. reflexivity.
  Qed.
End Reads.
