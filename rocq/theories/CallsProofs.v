(** The work of the parser on documents. *)
From Verif Require Import Str StrFacts Spec ValueTypes Property Chrono DateTime Component Calendar Nom Parser SpecDoc SpecItems SpecGrammar
  ParserProofs TotalProofs ReadProofs AcceptProofs RejectProofs ItemProofs DocProofs GrammarProofs Cost SpecCost SpecCalls CostProofs.
From Coq Require Import ZifyBool ZifyNat ZifyN.

Section Calls.
  Context {U : Unicode} {E : Type} {PE : PErr E}.

  Definition item_parts (x : wline + wtree) : nat := match x with inl _ => 1 | inr t => parts t end.
  Lemma parts_eq : forall n its, parts (W n its) = S (list_sum (map item_parts its)).
  Proof. easy. Qed.
  Lemma lower_prefix : forall i, begins i -> starts_with (lit "begin:") (map lower_ascii i) = true.
  Proof. intros i (k & r & K & ->). rewrite map_app, K. apply starts_with_app. Qed.
  Lemma name_ends_line : forall y e r, line_end y e -> name_ends (e ++ r).
  Proof.
    intros y e r H. apply name_ends_stops. destruct (line_end_head y e r H) as (d & z & -> & D). apply stops_special. cbn. destruct D as [->| ->]; tauto.
  Qed.

  (** A line is tried as a component first, which costs one call; a component is taken at once. *)
  Lemma items_calls : forall y f n its ss ke ee rest,
    (forall t, In (inr t) its -> wtree_ok y t -> forall s, wtree_text y t s -> forall rest, no_break rest ->
       (y = Lf -> ~ has_crlf (s ++ rest)) -> length s <= f -> fst (ccomponent (E := E) (S f) (s ++ rest)) = parts t) ->
    items_ok y its -> items_text y its ss -> (forall s, In s ss -> length s <= f) ->
    map lower_ascii ke = lit "end:" -> line_end y ee -> no_break rest ->
    (y = Lf -> ~ has_crlf (concat ss ++ ke ++ n ++ ee ++ rest)) ->
    forall fuel, length its < fuel ->
    fst (cmany_till fuel (cbody (S f)) (end_p (E := E) n) (concat ss ++ ke ++ n ++ ee ++ rest)) = list_sum (map item_parts its).
  Proof.
    intros y f n its ss ke ee rest IHt O T. revert IHt O.
    assert (Nt : map lower_ascii ke = lit "end:" -> no_break (ke ++ n ++ ee ++ rest)).
    { intros H. apply keyword_no_break. eauto. }
    induction T as [|x s its ss Tx T IH]; intros IHt O Ls Hke Hee R C fuel F; (destruct fuel as [|fuel]; [cbn in F; lia|]).
    - cbn [concat app map list_sum]. rewrite ctill_step by now apply Nt. now rewrite (end_ok y).
    - inversion O as [|? ? Ox O']; subst. cbn [concat] in *. rewrite <- app_assoc in *.
      set (tail := concat ss ++ ke ++ n ++ ee ++ rest) in *.
      destruct (item_start y x s tail Ox Tx) as (N1 & N2 & N3).
      assert (Ntail : no_break tail) by (apply (items_start y its); auto).
      assert (Ctail : y = Lf -> ~ has_crlf tail).
      { intros Y K. apply (C Y). now apply has_crlf_app_r. }
      rewrite ctill_step by easy.
      destruct (end_line_err _ (cut (context "mismatching end" (tag n))) _ _ (skips_none _ N1) N2) as [er Er].
      unfold end_p at 1. rewrite Er.
      assert (B : body_p (E := E) (S f) (s ++ tail) = IOk tail (child_of x) /\ fst (ccomponent (E := E) (S f) (s ++ tail)) = item_parts x).
      { inversion Tx as [l s' (e & He & Hs)|t s' Ht]; subst.
        - inversion Ox as [? L|]; subst. rewrite <- app_assoc in *. cbn [child_of]. split; [now apply (body_line y)|].
          apply (ccomponent_not_begin f _ (wline_text l ++ e ++ tail)); [now apply skips_none|]. intros K. apply lower_prefix in K.
          destruct (wline_no_keyword y l e tail L He) as (_ & Q & _). congruence.
        - inversion Ox; subst. cbn [child_of item_parts]. split; [|apply IHt; try easy; [now left|apply Ls; now left]]. unfold body_p, cut, context, alt2.
          rewrite (line_separated_ok _ _ _ _ tail tail (inl (wtree_read t)) (skips_none _ N1)); [easy| |now apply skips_none].
          unfold pmap, pbind. assert (Q : component (E := E) (S f) ([] ++ s ++ tail) = IOk tail (wtree_read t)).
          { apply (component_text_ok y); try easy; [constructor|]. apply Ls. now left. }
          cbn [app] in Q. now rewrite Q. }
      destruct B as [-> ->]. rewrite longer by easy. cbn [map list_sum fold_right]. unfold tail. f_equal. apply IH; try easy.
      + intros t I. apply IHt. now right.
      + intros s' I. apply Ls. now right.
      + cbn in F. lia.
  Qed.
  Lemma component_calls : forall y t, wtree_ok y t -> forall s, wtree_text y t s -> forall b rest fuel,
    breaks b -> no_break rest -> (y = Lf -> ~ has_crlf (s ++ rest)) -> length s <= fuel ->
    fst (ccomponent (E := E) (S fuel) (b ++ s ++ rest)) = parts t.
  Proof.
    intros y. induction t as [n its IH] using ParserProofs.wtree_deep. intros O s T b rest fuel B R C F.
    rewrite (ccomponent_skips fuel (b ++ s ++ rest) (s ++ rest)).
    2:{ exists b. split; [easy|]. split; [easy|]. apply no_break_spec. now apply (wtree_text_no_break y (W n its) s rest). }
    inversion O as [? ? Hn Hits]; subst. inversion T as [? ? kb ke eb ee ss Hkb Hke Heb Hee Hss]; subst. clear T.
    assert (Lb : kb <> []) by now destruct kb.
    rewrite <- !app_assoc in *. set (tail := concat ss ++ ke ++ n ++ ee ++ rest) in *.
    assert (Nt : no_break (ke ++ n ++ ee ++ rest)) by (apply keyword_no_break; eauto).
    assert (Ntail : no_break tail) by (eapply items_start; eauto).
    rewrite (ccomponent_begin fuel kb n (eb ++ tail) tail); [|easy|easy|now apply (name_ends_line y)|].
    2:{ exists eb. split; [now apply line_end_breaks in Heb|]. split; [easy|]. now apply no_break_spec. }
    rewrite parts_eq. f_equal. rewrite !app_length in F.
    assert (Cc : y = Lf -> ~ has_crlf tail).
    { intros Y K. apply (C Y). do 3 apply has_crlf_app_r. exact K. }
    destruct fuel as [|f]; [destruct kb; [easy|cbn [length] in F; lia]|].
    unfold tail at 2. apply (items_calls y); try easy.
    - intros t I Ot s Ts r Rr Cr L. apply (IH t I Ot s Ts [] r f); try easy. constructor.
    - intros s I. apply in_concat_length in I. destruct kb; [easy|]. cbn [length] in F. lia.
    - apply (items_length y) with (2 := Hss) in Hits. unfold tail. rewrite app_length. lia.
  Qed.
  Lemma components_calls : forall y t s b, wtree_ok y t -> wtree_text y t s -> breaks b -> (y = Lf -> ~ has_crlf s) ->
    fst (ccomponents_p (E := E) (b ++ s)) = S (parts t).
  Proof.
    intros y t s b O T B C. unfold ccomponents_p. cbn [cmany0]. unfold call_consuming at 1, ccomponent_p at 1.
    assert (L : length s <= length (b ++ s)) by (rewrite app_length; lia).
    pose proof (component_calls y t O s T b [] (length (b ++ s)) B no_break_nil) as Q. rewrite app_nil_r in Q. specialize (Q C L).
    pose proof (component_text_ok (E := E) y t O s T b [] (length (b ++ s)) B no_break_nil) as R. rewrite app_nil_r in R. specialize (R C L).
    rewrite <- (erases_component (S (length (b ++ s))) (b ++ s)) in R. destruct (ccomponent (S (length (b ++ s))) (b ++ s)) as [m z]. cbn [fst snd] in Q, R. subst m z.
    destruct (wtree_text_no_break y t s [] T) as (_ & _ & Z).
    destruct (length (b ++ s)) as [|k] eqn:K; [destruct s; [easy|rewrite app_length in K; cbn [length] in K; lia]|]. cbn [length Nat.eqb cmany0].
    unfold call_consuming at 1, ccomponent_p at 1. destruct call_empty as [e ->]. cbn [fst]. lia.
  Qed.
End Calls.
