(** What the parser rejects, and what it gives up silently. *)
From Verif Require Import Str StrFacts Spec ValueTypes Property Chrono DateTime Component Calendar Nom Parser SpecDoc
  ParserProofs TotalProofs ReadProofs AcceptProofs.
From Coq Require Import ZifyBool ZifyNat ZifyN.

Section Rejects.
  Context {U : Unicode} {E : Type} {PE : PErr E}.

  Lemma items_then : forall y f n its ss tail, (forall s, In s ss -> length s <= f) ->
    items_ok y its -> items_text y its ss -> no_break tail -> (y = Lf -> ~ has_crlf (concat ss ++ tail)) ->
    forall k, many_till (length its + k) (body_p (E := E) (S f)) (end_p n) (concat ss ++ tail)
      = match many_till k (body_p (S f)) (end_p n) tail with
        | IOk r (l, b) => IOk r (map child_of its ++ l, b)
        | IErr e => IErr e | IFail e => IFail e | IFuel => IFuel
        end.
  Proof.
    intros y f n its ss tail Ls O T N C k. revert O Ls C.
    induction T as [|x s its ss Tx T IH]; intros O Ls C.
    - cbn [length Nat.add concat app map]. now destruct (many_till k _ _ tail) as [r [l b]|e|e|].
    - inversion O as [|? ? Ox O']; subst. cbn [concat] in *. rewrite <- app_assoc in *. cbn [length Nat.add many_till].
      set (t := concat ss ++ tail) in *.
      destruct (item_start y x s t Ox Tx) as (N1 & N2 & N3).
      assert (Nt : no_break t) by (apply (items_start y its); auto).
      assert (Ct : y = Lf -> ~ has_crlf t) by (intros Y K; apply (C Y); now apply has_crlf_app_r).
      destruct (end_line_err _ (cut (context "mismatching end" (tag n))) _ _ (skips_none _ N1) N2) as [er Er].
      unfold end_p at 1. rewrite Er.
      assert (B : body_p (E := E) (S f) (s ++ t) = IOk t (child_of x)).
      { inversion Tx as [l s' (e & He & Hs)|w s' Hw]; subst.
        - inversion Ox; subst. rewrite <- app_assoc in *. cbn [child_of]. now apply (body_line y).
        - inversion Ox as [|w' Ow]; subst. cbn [child_of]. unfold body_p, cut, context, alt2.
          rewrite (line_separated_ok _ _ _ _ t t (inl (wtree_read w)) (skips_none _ N1)); [easy| |now apply skips_none].
          unfold pmap, pbind. assert (L : length s <= f) by (apply Ls; now left).
          pose proof (component_text_ok (E := E) y w Ow s Hw [] t f bk_nil Nt C L) as Q. cbn [app] in Q. now rewrite Q. }
      rewrite B, longer by easy. rewrite IH; try easy.
      + destruct (many_till k _ _ tail) as [r [l b]|e|e|]; easy.
      + intros s' I. apply Ls. now right.
  Qed.

  Lemma component_S : forall f, component (E := E) (S f) =
    pbind (line (lit "BEGIN:") valid_key_sequence) (fun name =>
    pbind (fun i => many_till (S (length i)) (body_p f) (end_p name) i) (fun '(body, _) =>
    pbind (fun i => many0 (S (length i)) (tag [LF]) i) (fun _ =>
    pret (mk_pcomp name (children_props body) (children_comps body))))).
  Proof. reflexivity. Qed.
  (** A component after its beginning. *)
  Lemma open_parse : forall y n s tail f b, open_text y n s -> breaks b -> no_break tail -> (y = Lf -> ~ has_crlf (s ++ tail)) -> length s <= S f ->
    exists its k, component (E := E) (S (S f)) (b ++ s ++ tail)
      = match many_till (S k) (body_p (S f)) (end_p n) tail with
        | IOk r (l, x) => pbind (fun i => many0 (S (length i)) (tag [LF]) i)
            (fun _ => pret (mk_pcomp n (children_props (its ++ l)) (children_comps (its ++ l)))) r
        | IErr e => IErr e | IFail e => IFail e | IFuel => IFuel
        end.
  Proof.
    intros y n s tail f b H B Nt C L. inversion H as [? its kb eb ss Hn Hkb Heb O T]; subst. clear H.
    rewrite <- !app_assoc in *.
    set (t := concat ss ++ tail) in *.
    assert (Ntail : no_break t) by (eapply items_start; eauto).
    rewrite component_S. unfold pbind at 1. unfold line at 1.
    rewrite (line_separated_ok _ _ _ (kb ++ n ++ eb ++ t) (eb ++ t) t n).
    2:{ apply skips_breaks; [easy|]. apply keyword_no_break. eauto. }
    2:{ unfold preceded, pbind. rewrite tag_no_case_ok by easy. apply valid_key_ok; [easy|].
        destruct (line_end_head y eb t Heb) as (c & r & -> & D). apply stops_special. cbn. destruct D as [->| ->]; tauto. }
    2:{ apply skips_breaks; [now apply line_end_breaks in Heb|easy]. }
    unfold pbind at 1. cbv beta.
    exists (map child_of its), (length t - length its).
    assert (Li : length its <= length (concat ss)) by (eapply items_length; eauto).
    assert (Lt : length t = length (concat ss) + length tail) by (unfold t; apply app_length).
    replace (S (length t)) with (length its + S (length t - length its)) by lia.
    unfold t at 2. rewrite (items_then y); try easy.
    - destruct (many_till (S _) _ _ tail) as [r [l x]|e|e|]; easy.
    - intros s I. apply in_concat_length in I. rewrite !app_length in L. destruct kb; [easy|]. cbn [length] in L. lia.
    - intros Y K. apply (C Y). now do 3 apply has_crlf_app_r.
  Qed.

  Lemma open_no_break : forall y n s t, open_text y n s ->
    no_break (s ++ t) /\ starts_with (lit "end:") (map lower_ascii (s ++ t)) = false /\ 6 <= length s.
  Proof.
    intros y n s t H. inversion H as [? its kb eb ss Hn Hkb Heb O T]; subst. rewrite <- !app_assoc. split; [|split].
    - apply keyword_no_break. eauto.
    - now apply begin_not_end.
    - rewrite !app_length. apply (f_equal (@length N)) in Hkb. rewrite map_length in Hkb. cbn in Hkb. lia.
  Qed.
  Lemma property_empty : property_p (E := E) [] = IOk [] (mk_pprop [] [] []).
  Proof. reflexivity. Qed.
  (** A text that stops inside its outermost component. *)
  Lemma truncated : forall y n s b, open_text y n s -> breaks b -> (y = Lf -> ~ has_crlf s) ->
    exists e, component_p (E := E) (b ++ s) = IErr e.
  Proof.
    intros y n s b H B C. destruct (open_no_break y n s [] H) as (_ & _ & L). unfold component_p.
    remember (length (b ++ s)) as m. rewrite app_length in Heqm. destruct m as [|f]; [lia|].
    destruct (open_parse y n s [] f b H B no_break_nil) as (its & k & Q); [now rewrite app_nil_r|lia|].
    rewrite app_nil_r in Q. rewrite Q. cbn [many_till].
    destruct (end_line_err (E := E) _ (cut (context "mismatching end" (tag n))) [] [] (skips_none _ no_break_nil) eq_refl) as [er Er].
    unfold end_p. rewrite Er. unfold body_p, cut, context, alt2.
    destruct (component_not_begin (E := E) f [] [] (skips_none _ no_break_nil) eq_refl) as [e2 E2].
    rewrite (line_separated_err _ _ _ _ e2 (skips_none _ no_break_nil)) by (unfold pmap, pbind; now rewrite E2).
    rewrite (line_separated_ok _ _ _ _ [] [] (inr (mk_pprop [] [] [])) (skips_none _ no_break_nil)) by (easy || now apply skips_none).
    cbn. eauto.
  Qed.

  Lemma mis_no_break : forall y s, misnested y s -> no_break s /\ starts_with (lit "end:") (map lower_ascii s) = false.
  Proof.
    intros y s [n a ke m rest H _ _ _ _|n a t H _]; destruct (open_no_break y n a (ke ++ m ++ rest) H) || destruct (open_no_break y n a t H); tauto.
  Qed.
  Lemma mismatched : forall y s, misnested y s -> (y = Lf -> ~ has_crlf s) -> forall b f, breaks b -> length s <= f ->
    exists e, component (E := E) (S f) (b ++ s) = IFail e.
  Proof.
    intros y s H. induction H as [n s ke m rest H K M P R|n s t H T IH]; intros C b f B L; rewrite app_length in L;
      destruct (open_no_break y n s [] H) as (_ & _ & L6); (destruct f as [|f]; [lia|]).
    - assert (Nb : no_break (ke ++ m ++ rest)) by (apply keyword_no_break; eauto).
      destruct (open_parse y n s _ f b H B Nb) as (its & k & Q); [easy|lia|]. rewrite Q. cbn [many_till].
      unfold end_p at 1, line. erewrite (line_separated_fail _ _ _ (ke ++ m ++ rest)).
      + eauto.
      + now apply skips_none.
      + unfold preceded, pbind. rewrite tag_no_case_ok by easy. unfold cut, context. rewrite tag_err; [easy|].
        destruct (starts_with n (m ++ rest)) eqn:S; [|easy]. exfalso. apply P. eapply prefix_key; [| |exact S].
        * inversion H; subst. now apply name_ok_spec.
        * destruct rest as [|c r]; [easy|]. specialize (R c r eq_refl). cbn. destruct (is_key_char c) eqn:I; [|easy].
          now apply is_key_char_spec in I.
    - destruct (mis_no_break y t T) as [Nb Ne].
      destruct (open_parse y n s _ f b H B Nb) as (its & k & Q); [easy|lia|]. rewrite Q. cbn [many_till].
      destruct (end_line_err (E := E) _ (cut (context "mismatching end" (tag n))) t t (skips_none _ Nb) Ne) as [er Er].
      unfold end_p. rewrite Er.
      assert (Ct : y = Lf -> ~ has_crlf t) by (intros Y X; apply (C Y); now apply has_crlf_app_r).
      destruct (IH Ct [] f bk_nil ltac:(lia)) as [e2 E2]. cbn [app] in E2.
      unfold body_p, cut, context, alt2.
      rewrite (line_separated_fail _ _ _ t e2) by ((now apply skips_none) || (unfold pmap, pbind; now rewrite E2)). eauto.
  Qed.

  (** The recursion depth. *)
  Lemma nested_no_break : forall n, no_break (nested_begins n).
  Proof. intros [|n]; [easy|]. unfold nested_begins. cbn. easy. Qed.
  Lemma depth_needed : forall f n, f <= n -> component (E := E) f (nested_begins n) = IFuel.
  Proof.
    induction f as [|f IH]; intros n L; [easy|]. destruct n as [|n]; [lia|].
    assert (Hn : nested_begins (S n) = lit "BEGIN:" ++ lit "A" ++ [CR; LF] ++ nested_begins n) by reflexivity.
    rewrite Hn. cbn [component]. unfold pbind at 1. unfold line at 1.
    rewrite (line_separated_ok _ _ _ (lit "BEGIN:" ++ lit "A" ++ [CR; LF] ++ nested_begins n) ([CR; LF] ++ nested_begins n)
      (nested_begins n) (lit "A")).
    2:{ apply skips_none. easy. }
    2:{ reflexivity. }
    2:{ apply skips_breaks; [|apply nested_no_break]. apply (bk_cons [CR; LF] []); [now left|constructor]. }
    unfold pbind at 1. cbv beta. cbn [many_till].
    destruct (end_line_err (E := E) _ (cut (context "mismatching end" (tag (lit "A")))) _ _ (skips_none _ (nested_no_break n))) as [er Er].
    { now destruct n. }
    rewrite Er. unfold cut, context, alt2, line_separated at 1, delimited, pbind at 1.
    destruct (skips_none (E := E) _ (nested_no_break n)) as [l ->]. unfold pmap, pbind. now rewrite IH by lia.
  Qed.
End Rejects.
