(** The work of looking for line breaks on documents. *)
From Verif Require Import Str StrFacts Spec ValueTypes Property Chrono DateTime Component Calendar Nom Parser SpecDoc SpecItems SpecGrammar
  ParserProofs TotalProofs ReadProofs AcceptProofs RejectProofs ItemProofs DocProofs GrammarProofs Cost SpecCost CostProofs SpecCalls CallsProofs Search SpecSearch SearchProofs.
From Coq Require Import ZifyBool ZifyNat ZifyN.

(** ** The specification. *)
Lemma items_look_text : forall y its ss rest m, items_look y its ss rest m ->
  (forall t, In (inr t) its -> forall s r k, tree_looks y t s r k -> wtree_text y t s) ->
  Forall2 (either2 (fun l s => exists e, line_end y e /\ s = wline_text l ++ e) (wtree_text y)) its ss.
Proof.
  intros y its. induction its as [|x its IH]; intros ss rest m H T; inversion H; subst; constructor.
  - constructor. eauto.
  - eapply IH; [eassumption|]. intros t I. apply T. now right.
  - constructor. eapply T; [now left|eassumption].
  - eapply IH; [eassumption|]. intros t' I. apply T. now right.
Qed.
Lemma tree_looks_text : forall y t s rest m, tree_looks y t s rest m -> wtree_text y t s.
Proof.
  intros y. induction t as [n its IH] using ParserProofs.wtree_deep. intros s rest m H. inversion H; subst. constructor; try easy.
  eapply items_look_text; [eassumption|]. intros t I s r k. now apply IH.
Qed.
Lemma tree_looks_ex : forall y t s, wtree_text y t s -> forall rest, exists m, tree_looks y t s rest m.
Proof.
  intros y. induction t as [n its IH] using ParserProofs.wtree_deep. intros s H rest. inversion H as [? ? kb ke eb ee ss Kb Ke Eb Ee F]; subst.
  assert (X : forall r, exists m, items_look y its ss r m).
  { clear H Kb Ke Eb Ee. intros r. induction F as [|x s its ss Hx F IHf]; [eexists; constructor|].
    destruct IHf as [m M]; [intros t I; apply IH; now right|].
    inversion Hx as [l s' (e & He & ->)|t s' Ht]; subst; [eexists; constructor; eassumption|].
    destruct (IH t (or_introl eq_refl) s Ht (concat ss ++ r)) as [k K]. eexists. constructor; eassumption. }
  destruct (X (ke ++ n ++ ee ++ rest)) as [m M]. exists m. now constructor.
Qed.
Lemma value_lines_eq : forall n its, value_lines (W n its) =
  list_sum (map (fun x => match x with inl (LValue _ _ _) => 1 | inl (LBare _) => 0 | inr t => value_lines t end) its).
Proof. easy. Qed.
(** A document with CR LF: not more than its characters. *)
Lemma line_end_pos : forall y e, line_end y e -> 1 <= length e.
Proof. intros [|] e; [intros (b & -> & _)|intros (n & ->)]; cbn [app length]; lia. Qed.
Lemma tree_looks_crlf : forall t s rest m, tree_looks CrLf t s rest m -> m <= length s.
Proof.
  induction t as [n its IH] using ParserProofs.wtree_deep. intros s rest m H. inversion H as [? ? kb ke eb ee ss ? ? Kb Ke Eb Ee F]; subst.
  assert (m <= length (concat ss)); [|rewrite !app_length; lia]. clear H Kb Ke Eb Ee. revert IH.
  generalize dependent (ke ++ n ++ ee ++ rest). intros r F. revert ss r m F.
  induction its as [|x its IHi]; intros ss r m F IH; inversion F as [|l e ? ss' ? m' He F'|t s ? ss' ? k m' Ht F']; subst; [cbn; lia| |].
  - specialize (IHi _ _ _ F' (fun t I => IH t (or_intror I))). cbn [concat]. rewrite !app_length. apply line_end_pos in He.
    destruct l as [k qs v|k]; cbn [line_looks wline_text]; [|lia]. rewrite !app_length. cbn [length]. lia.
  - specialize (IHi _ _ _ F' (fun t I => IH t (or_intror I))). apply (IH t (or_introl eq_refl)) in Ht. cbn [concat]. rewrite !app_length. lia.
Qed.
(** A document with LF: not less than the square of the number of its values. *)
Lemma tree_looks_lf : forall t s rest m, tree_looks Lf t s rest m ->
  value_lines t * value_lines t + value_lines t * length rest <= m /\ 2 * value_lines t <= length s.
Proof.
  induction t as [n its IH] using ParserProofs.wtree_deep. intros s rest m H. inversion H as [? ? kb ke eb ee ss ? ? Kb Ke Eb Ee F]; subst.
  assert (X : value_lines (W n its) * value_lines (W n its) + value_lines (W n its) * length (ke ++ n ++ ee ++ rest) <= m
    /\ 2 * value_lines (W n its) <= length (concat ss)); [|rewrite !app_length in *; nia].
  rewrite value_lines_eq. clear H Kb Ke Eb Ee. revert IH.
  generalize dependent (ke ++ n ++ ee ++ rest). intros r F. revert ss r m F.
  induction its as [|x its IHi]; intros ss r m F IH; inversion F as [|l e ? ss' ? m' He F'|t s ? ss' ? k m' Ht F']; subst; [cbn; lia| |];
    specialize (IHi _ _ _ F' (fun t I => IH t (or_intror I))); cbn [map list_sum fold_right concat];
    change (fold_right Nat.add 0) with list_sum; set (a := list_sum _) in *; rewrite !app_length; destruct IHi as [I1 I2].
  - apply line_end_pos in He. destruct l as [k qs v|k]; cbn [line_looks wline_text]; [|split; lia]. rewrite !app_length. cbn [length]. split; nia.
  - apply (IH t (or_introl eq_refl)) in Ht as [T1 T2]. rewrite app_length in T1. set (b := value_lines t) in *. split; [|lia]. nia.
Qed.

Section Documents.
  Context {U : Unicode} {E : Type} {PE : PErr E}.

  Lemma value_at_line : forall y l e rest, wline_ok y l -> line_end y e ->
    value_at (E := E) (wline_text l ++ e ++ rest) = match l with LValue _ _ v => Some (v ++ e ++ rest) | LBare _ => None end.
  Proof.
    intros y l e rest L H. unfold value_at, head_p, pair, pbind at 1, cut, context, preceded, pbind at 1.
    destruct l as [k qs v|k]; cbn [wline_text] in *.
    - destruct L as (K & Q & V).
      assert (T : (k ++ concat (map wparam_text qs) ++ COLON :: v) ++ e ++ rest
        = k ++ concat (map wparam_text qs) ++ COLON :: v ++ e ++ rest).
      { now rewrite <- !app_assoc. }
      rewrite T in *. clear T. set (tl := concat (map wparam_text qs) ++ COLON :: v ++ e ++ rest) in *.
      assert (Cl : closes tl) by apply concat_params_head.
      rewrite multispace0_none.
      2:{ intros c r Ec I. destruct (name_head k tl c r (proj1 K) Ec) as [[-> E2]|E2].
          - destruct Cl as (d & t & Ed & D). rewrite Ed in E2. injection E2 as -> _.
            cbn in I. destruct D as [->| ->]; repeat (destruct I as [I|I]; [discriminate I|]); easy.
          - apply E2. cbn in I |- *. tauto. }
      rewrite property_key_ok; [|easy|now apply closes_special].
      unfold pbind at 1. unfold tl. rewrite parameters_ok by easy. unfold pret at 1.
      change (COLON :: v ++ e ++ rest) with ([COLON] ++ v ++ e ++ rest). now rewrite tag_ok.
    - destruct L as (K & N).
      destruct (line_end_head y e rest H) as (c & r & Ec & D).
      assert (S : stops is_key_char (e ++ rest)).
      { rewrite Ec. apply stops_special. cbn. destruct D as [->| ->]; tauto. }
      rewrite multispace0_none.
      2:{ intros d t Ed I. destruct (name_head k _ d t (proj1 K) Ed) as [[-> _]|E2]; [easy|].
          apply E2. cbn in I |- *. tauto. }
      rewrite property_key_ok by easy. unfold pbind at 1. rewrite Ec. unfold parameters. cbn [many0].
      assert (P : exists er, parameter_p (E := E) (c :: r) = IErr er).
      { destruct D as [->| ->]; eexists; reflexivity. }
      destruct P as [er ->]. unfold pret at 1. rewrite tag_err; [easy|]. now destruct D as [->| ->].
  Qed.
  Lemma line_looked : forall y l e rest, wline_ok y l -> line_end y e -> (y = Lf -> ~ has_crlf (wline_text l ++ e ++ rest)) ->
    fst (sproperty (E := E) (wline_text l ++ e ++ rest)) = line_looks y l (e ++ rest).
  Proof.
    intros y l e rest L H C. rewrite sproperty_fst, (value_at_line y) by easy. destruct l as [k qs v|k]; [|now destruct y].
    destruct L as (_ & _ & V). unfold value_looks. destruct y; cbn [line_looks].
    - destruct H as (b & -> & _). cbn [app]. rewrite find_crlf by easy. rewrite (visited_some _ _ _ _ (find_crlf v (b ++ rest) V)). lia.
    - assert (~ has_crlf (v ++ e ++ rest)) as Nc.
      { intros (a & b & Q). apply (C eq_refl). cbn [wline_text]. exists (k ++ concat (map wparam_text qs) ++ COLON :: a), b.
        rewrite <- !app_assoc. cbn [app]. now rewrite Q. }
      apply find_crlf_none in Nc. rewrite Nc, (visited_none _ _ Nc). destruct H as (n & ->). cbn [app].
      rewrite (visited_some _ _ _ _ (find_lf v _ V)). rewrite !app_length. cbn [app]. easy.
  Qed.
  Lemma items_looked : forall y f n its ss ke ee rest m,
    (forall t, In (inr t) its -> wtree_ok y t -> forall s rest k, tree_looks y t s rest k -> no_break rest ->
       (y = Lf -> ~ has_crlf (s ++ rest)) -> length s <= f -> fst (scomponent (E := E) (S f) (s ++ rest)) = k) ->
    items_ok y its -> items_look y its ss (ke ++ n ++ ee ++ rest) m -> (forall s, In s ss -> length s <= f) ->
    map lower_ascii ke = lit "end:" -> line_end y ee -> no_break rest ->
    (y = Lf -> ~ has_crlf (concat ss ++ ke ++ n ++ ee ++ rest)) ->
    forall fuel, length its < fuel ->
    fst (cmany_till fuel (sbody (S f)) (end_p (E := E) n) (concat ss ++ ke ++ n ++ ee ++ rest)) = m.
  Proof.
    intros y f n its ss ke ee rest m IHt O T. assert (Tx : items_text y its ss).
    { eapply items_look_text; [eassumption|]. intros t _ s r k. apply tree_looks_text. }
    revert ss m T Tx IHt O.
    assert (Nt : map lower_ascii ke = lit "end:" -> no_break (ke ++ n ++ ee ++ rest)).
    { intros H. apply keyword_no_break. eauto. }
    induction its as [|x its IH]; intros ss m T Tt IHt O Ls Hke Hee R C fuel F; (destruct fuel as [|fuel]; [cbn in F; lia|]);
      inversion Tt as [|? s ? ss' Tx Ts]; subst; clear Tt.
    - inversion T; subst. cbn [concat app]. rewrite still_step by now apply Nt. now rewrite (end_ok y).
    - inversion O as [|? ? Ox O']; subst. cbn [concat] in *. rewrite <- app_assoc in *.
      set (tail := concat ss' ++ ke ++ n ++ ee ++ rest) in *.
      destruct (item_start y x s tail Ox Tx) as (N1 & N2 & N3).
      assert (Ntail : no_break tail) by (apply (items_start y its); auto).
      assert (Ctail : y = Lf -> ~ has_crlf tail).
      { intros Y K. apply (C Y). now apply has_crlf_app_r. }
      rewrite still_step by easy.
      destruct (end_line_err _ (cut (context "mismatching end" (tag n))) _ _ (skips_none _ N1) N2) as [er Er].
      unfold end_p at 1. rewrite Er.
      assert (G : forall m', items_look y its ss' (ke ++ n ++ ee ++ rest) m' -> fst (cmany_till fuel (sbody (S f)) (end_p (E := E) n) tail) = m').
      { intros m' M. apply (IH ss' m'); try easy.
        - intros t I. apply IHt. now right.
        - intros s' I. apply Ls. now right.
        - cbn in F. lia. }
      inversion T as [|l e ? ? ? m' He T'|t s' ? ? ? k m' Ht T']; subst.
      + inversion Ox as [? L|]; subst. rewrite <- app_assoc in *. rewrite (body_line y) by easy. 
        replace (length tail =? _) with false by (apply line_end_pos in He; rewrite !app_length; lia).
        rewrite (G _ T').
        assert (Nb : ~ begins (wline_text l ++ e ++ tail)).
        { intros K. apply lower_prefix in K. destruct (wline_no_keyword y l e tail L He) as (_ & Q & _). congruence. }
        rewrite (scomponent_not_begin (S f)) by easy. cbn [Nat.add].
        destruct (component_not_begin (E := E) f _ _ (skips_none _ N1)) with (1 := proj1 (proj2 (wline_no_keyword y l e tail L He))) as [er' Q].
        unfold comp_err. rewrite Q. rewrite (line_looked y) by easy. reflexivity.
      + inversion Ox as [|? Ot]; subst.
        assert (Q : component (E := E) (S f) (s ++ tail) = IOk tail (wtree_read t)).
        { assert (Q : component (E := E) (S f) ([] ++ s ++ tail) = IOk tail (wtree_read t)); [|exact Q].
          apply (component_text_ok y); try easy; [now inversion Tx|constructor|]. apply Ls. now left. }
        rewrite (IHt t (or_introl eq_refl) Ot s tail k Ht Ntail C (Ls s (or_introl eq_refl))). unfold comp_err. rewrite Q.
        assert (body_p (E := E) (S f) (s ++ tail) = IOk tail (inl (wtree_read t))) as ->.
        { unfold body_p, cut, context, alt2.
          rewrite (line_separated_ok _ _ _ _ tail tail (inl (wtree_read t)) (skips_none _ N1)); [easy| |now apply skips_none].
          unfold pmap, pbind. now rewrite Q. }
        rewrite longer by easy. rewrite (G _ T'). lia.
  Qed.
  Lemma component_looked : forall y t, wtree_ok y t -> forall s rest m, tree_looks y t s rest m -> forall b fuel,
    breaks b -> no_break rest -> (y = Lf -> ~ has_crlf (s ++ rest)) -> length s <= fuel ->
    fst (scomponent (E := E) (S fuel) (b ++ s ++ rest)) = m.
  Proof.
    intros y. induction t as [n its IH] using ParserProofs.wtree_deep. intros O s rest m T b fuel B R C F.
    rewrite (scomponent_skips fuel (b ++ s ++ rest) (s ++ rest)).
    2:{ exists b. split; [easy|]. split; [easy|]. apply no_break_spec. apply (wtree_text_no_break y (W n its) s rest). now apply tree_looks_text in T. }
    apply tree_looks_text in T as T0. inversion O as [? ? Hn Hits]; subst.
    inversion T as [? ? kb ke eb ee ss ? ? Hkb Hke Heb Hee Hss]; subst. clear T T0.
    assert (Htx : items_text y its ss).
    { eapply items_look_text; [eassumption|]. intros t _ s r k. apply tree_looks_text. }
    assert (Lb : kb <> []) by now destruct kb.
    rewrite <- !app_assoc in *. set (tail := concat ss ++ ke ++ n ++ ee ++ rest) in *.
    assert (Nt : no_break (ke ++ n ++ ee ++ rest)) by (apply keyword_no_break; eauto).
    assert (Ntail : no_break tail) by (eapply items_start; eauto).
    rewrite (scomponent_begin fuel kb n (eb ++ tail) tail); [|easy|easy|now apply (name_ends_line y)|].
    2:{ exists eb. split; [now apply line_end_breaks in Heb|]. split; [easy|]. now apply no_break_spec. }
    rewrite !app_length in F.
    assert (Cc : y = Lf -> ~ has_crlf tail).
    { intros Y K. apply (C Y). do 3 apply has_crlf_app_r. exact K. }
    destruct fuel as [|f]; [destruct kb; [easy|cbn [length] in F; lia]|].
    unfold tail at 2. apply (items_looked y f n its); try easy.
    - intros t I Ot s r k Ts Rr Cr L. apply (IH t I Ot s r k Ts [] f); try easy. constructor.
    - intros s I. apply in_concat_length in I. destruct kb; [easy|]. cbn [length] in F. lia.
    - apply (items_length y) with (2 := Htx) in Hits. unfold tail. rewrite app_length. lia.
  Qed.
  Lemma components_looked : forall y t s b m, wtree_ok y t -> tree_looks y t s [] m -> breaks b -> (y = Lf -> ~ has_crlf s) ->
    fst (scomponents_p (E := E) (b ++ s)) = m.
  Proof.
    intros y t s b m O T B C. destruct (scomponents_first (E := E) (b ++ s)) as [-> _].
    pose proof (component_looked y t O s [] m T b (length (b ++ s)) B no_break_nil) as Q. rewrite app_nil_r in Q. apply Q; [easy|].
    rewrite app_length. lia.
  Qed.
End Documents.
