(** The parser on documents written line by line. *)
From Verif Require Import Str StrFacts Spec ValueTypes Property Chrono DateTime Component Calendar Nom Parser SpecDoc.
From Coq Require Import ZifyBool ZifyNat ZifyN.

(** ** Character classes *)

Section Chars.
  Context {U : Unicode}.
  Lemma is_key_char_spec : forall c, is_key_char c = true <-> key_char c.
  Proof.
    intros c. unfold is_key_char, key_char. cbn [In]. destruct (is_alnum c); [rewrite orb_true_r; tauto|].
    rewrite orb_false_r. split; intros H; [left; lia|]. destruct H as [H|H]; [lia|easy].
  Qed.
  Lemma name_ok_spec : forall k, forallb is_key_char k = true <-> name_ok k.
  Proof.
    intros k. unfold name_ok. rewrite forallb_forall, Forall_forall. split; intros H c I; apply is_key_char_spec; auto.
  Qed.
  (** The characters with a meaning in a line are no key characters. *)
  Definition special : list char := [TAB; LF; CR; SP; DQ; COLON; SEMI; EQUALS].
  Lemma special_not_key : forall c, In c special -> is_key_char c = false.
  Proof. intros c H. cbn in H. repeat (destruct H as [<-|H]; [reflexivity|]). destruct H. Qed.
  Lemma name_no_special : forall k c, name_ok k -> In c special -> ~ In c k.
  Proof.
    intros k c H S I. apply name_ok_spec in H. rewrite forallb_forall in H. apply H in I.
    rewrite special_not_key in I; easy.
  Qed.
End Chars.

Lemma lower_colon : forall c, lower_ascii c = COLON -> c = COLON.
Proof. intros c. unfold lower_ascii, is_upper, in_range, COLON. destruct ((65 <=? c)%N && (c <=? 90)%N) eqn:E; lia. Qed.

(** ** Spans and substrings *)

Definition stops (f : char -> bool) (s : str) : Prop := match s with [] => True | c :: _ => f c = false end.
Lemma span_app : forall f a b, forallb f a = true -> stops f b -> span f (a ++ b) = (a, b).
Proof.
  induction a as [|c a IH]; cbn [app forallb]; intros b H S.
  - destruct b as [|d b]; cbn [span]; [easy|]. cbn in S. now rewrite S.
  - apply andb_true_iff in H as [H1 H2]. cbn [span]. now rewrite H1, IH.
Qed.
Lemma span_spec : forall f s a b, span f s = (a, b) -> s = a ++ b /\ forallb f a = true /\ stops f b.
Proof.
  induction s as [|c s IH]; cbn [span]; intros a b H.
  - injection H as <- <-. easy.
  - destruct (f c) eqn:E.
    + destruct (span f s) as [x y] eqn:F. injection H as <- <-. destruct (IH x y eq_refl) as (-> & A & S).
      cbn [app forallb]. now rewrite E.
    + injection H as <- <-. easy.
Qed.

Lemma find_sub_some : forall t s a b, find_sub t s = Some (a, b) -> s = a ++ b /\ exists r, b = t ++ r.
Proof.
  intros t. induction s as [|c s IH]; cbn [find_sub]; intros a b.
  - destruct (starts_with t []) eqn:S; [|easy]. intros H. injection H as <- <-. split; [easy|]. now apply starts_with_spec.
  - destruct (starts_with t (c :: s)) eqn:S.
    + intros H. injection H as <- <-. split; [easy|]. now apply starts_with_spec.
    + destruct (find_sub t s) as [[a' b']|]; [|easy]. intros H. injection H as <- <-.
      destruct (IH a' b' eq_refl) as (-> & R). now split.
Qed.
Lemma find_sub_none : forall t s, find_sub t s = None -> forall a b, s <> a ++ t ++ b.
Proof.
  intros t. induction s as [|c s IH]; cbn [find_sub]; intros H a b E.
  - symmetry in E. apply app_eq_nil in E as [-> E]. apply app_eq_nil in E as [-> ->]. easy.
  - destruct (starts_with t (c :: s)) eqn:S; [easy|]. destruct (find_sub t s) as [[a' b']|]; [easy|].
    destruct a as [|d a].
    + cbn [app] in E. rewrite E, starts_with_app in S. easy.
    + injection E as _ E. now apply (IH eq_refl a b).
Qed.
Lemma find_crlf : forall v r, ~ has_crlf v -> find_sub [CR; LF] (v ++ CR :: LF :: r) = Some (v, CR :: LF :: r).
Proof.
  induction v as [|c v IH]; intros r H.
  - destruct r; reflexivity.
  - assert (S : starts_with [CR; LF] ((c :: v) ++ CR :: LF :: r) = false).
    { destruct (starts_with _ _) eqn:E; [|easy]. apply starts_with_spec in E as [x E]. cbn [app] in E.
      injection E as -> E. destruct v as [|d v]; [easy|]. cbn [app] in E. injection E as -> E. exfalso. apply H.
      now exists [], v. }
    cbn [app] in *. cbn [find_sub]. rewrite S, IH; [easy|]. intros (a & b & ->). apply H. now exists (c :: a), b.
Qed.
Lemma find_crlf_none : forall v, ~ has_crlf v -> find_sub [CR; LF] v = None.
Proof.
  intros v H. destruct (find_sub [CR; LF] v) as [[a b]|] eqn:E; [|easy]. exfalso. apply H.
  apply find_sub_some in E as (-> & r & ->). now exists a, r.
Qed.
Lemma find_lf : forall v r, ~ In LF v -> find_sub [LF] (v ++ LF :: r) = Some (v, LF :: r).
Proof.
  induction v as [|c v IH]; intros r H; cbn [app find_sub starts_with].
  - now rewrite N.eqb_refl.
  - replace (LF =? c)%N with false by (cbn in H; lia). cbn [andb]. rewrite IH; [easy|]. cbn in H. tauto.
Qed.

Lemma longer : forall A (x y : list A), x <> [] -> (length y =? length (x ++ y)) = false.
Proof. intros A [|c x] y H; [easy|]. rewrite app_length. cbn [length]. lia. Qed.

(** ** Line breaks *)

Definition no_break (s : str) : Prop := starts_with [LF] s = false /\ starts_with [CR; LF] s = false.
Lemma no_break_head : forall c r, c <> LF -> c <> CR -> no_break (c :: r).
Proof.
  intros c r H1 H2. unfold no_break. cbn [starts_with]. replace (LF =? c)%N with false by lia.
  now replace (CR =? c)%N with false by lia.
Qed.
Lemma no_break_spec : forall s, no_break s <-> no_break_next s.
Proof.
  intros s. unfold no_break, no_break_next. split; intros [H1 H2]; split.
  - intros [r ->]. now rewrite starts_with_app in H1.
  - intros [r ->]. now rewrite starts_with_app in H2.
  - destruct (starts_with [LF] s) eqn:Q; [|easy]. now apply starts_with_spec in Q.
  - destruct (starts_with [CR; LF] s) eqn:Q; [|easy]. now apply starts_with_spec in Q.
Qed.
Lemma no_break_nil : no_break [].
Proof. easy. Qed.

Section Lines.
  Context {U : Unicode} {E : Type} {PE : PErr E}.
  Lemma line_ending_err : forall s, no_break s -> line_ending (E := E) s = IErr (from_kind s KCrLf).
  Proof. intros s [H1 H2]. unfold line_ending. now rewrite H1, H2. Qed.
  Lemma line_ending_ok : forall b r, break b -> line_ending (E := E) (b ++ r) = IOk r b.
  Proof. intros b r [->| ->]; reflexivity. Qed.

  (** [skips i r]: [r] is [i] without its leading line breaks. *)
  Definition skips (i r : str) : Prop :=
    exists l, many0 (S (length i)) (line_ending (E := E)) i = IOk r l.
  Lemma many0_breaks : forall b, breaks b -> forall r fuel, no_break r -> length b < fuel ->
    exists l, many0 fuel (line_ending (E := E)) (b ++ r) = IOk r l.
  Proof.
    induction 1 as [|x b X B IH]; intros r fuel H F.
    - destruct fuel as [|f]; [cbn in F; lia|]. cbn [app many0]. rewrite line_ending_err by easy. eauto.
    - destruct fuel as [|f]; [lia|]. cbn [many0]. rewrite <- app_assoc, line_ending_ok by easy.
      rewrite !app_length in *. assert (1 <= length x) by (destruct X as [->| ->]; cbn; lia).
      replace (_ =? _) with false by lia. destruct (IH r f H ltac:(lia)) as [l ->]. eauto.
  Qed.
  Lemma skips_breaks : forall b r, breaks b -> no_break r -> skips (b ++ r) r.
  Proof. intros b r B H. apply many0_breaks; [easy|easy|]. rewrite app_length. lia. Qed.
  Lemma skips_none : forall r, no_break r -> skips r r.
  Proof. intros r H. apply (skips_breaks [] r); [constructor|easy]. Qed.

  Lemma line_separated_ok : forall A (p : parser E A) i j r s a,
    skips i j -> p j = IOk r a -> skips r s -> line_separated p i = IOk s a.
  Proof.
    intros A p i j r s a [l H1] H2 [l' H3]. unfold line_separated, delimited, pbind. rewrite H1, H2, H3. easy.
  Qed.
  Lemma line_separated_err : forall A (p : parser E A) i j e,
    skips i j -> p j = IErr e -> line_separated p i = IErr e.
  Proof. intros A p i j e [l H1] H2. unfold line_separated, delimited, pbind. now rewrite H1, H2. Qed.
  Lemma line_separated_fail : forall A (p : parser E A) i j e,
    skips i j -> p j = IFail e -> line_separated p i = IFail e.
  Proof. intros A p i j e [l H1] H2. unfold line_separated, delimited, pbind. now rewrite H1, H2. Qed.

  Lemma line_end_breaks : forall y s, line_end y s -> breaks s /\ s <> [].
  Proof.
    intros [|] s; cbn.
    - intros (b & -> & B). split; [|easy]. apply (bk_cons [CR; LF]); [now left|easy].
    - intros (n & ->). split; [|easy]. apply (bk_cons [LF] (repeat LF n)); [now right|].
      induction n as [|n IH]; cbn [repeat]; [constructor|]. apply (bk_cons [LF]); [now right|easy].
  Qed.
  Lemma breaks_head : forall b, breaks b -> b <> [] -> exists c r, b = c :: r /\ (c = CR \/ c = LF).
  Proof. intros b [|x s [->| ->] B] H; [easy| |]; cbn; eauto. Qed.

  (** ** Tags *)

  Lemma tag_ok : forall t r, tag (E := E) t (t ++ r) = IOk r t.
  Proof. intros. unfold tag. now rewrite starts_with_app, skipn_app_exact. Qed.
  Lemma tag_err : forall t s, starts_with t s = false -> tag (E := E) t s = IErr (from_kind s KTag).
  Proof. intros t s H. unfold tag. now rewrite H. Qed.
  Lemma tag_no_case_ok : forall t k r, map lower_ascii k = map lower_ascii t ->
    tag_no_case (E := E) t (k ++ r) = IOk r k.
  Proof.
    intros t k r H. unfold tag_no_case. rewrite map_app, <- H, starts_with_app.
    assert (length t = length k) as -> by (apply (f_equal (@length N)) in H; rewrite !map_length in H; lia).
    now rewrite skipn_app_exact, firstn_app_exact.
  Qed.
  Lemma tag_no_case_err : forall t s, starts_with (map lower_ascii t) (map lower_ascii s) = false ->
    tag_no_case (E := E) t s = IErr (from_kind s KTag).
  Proof. intros t s H. unfold tag_no_case. now rewrite H. Qed.

  (** ** Parameters *)

  Lemma valid_key_ok : forall k r, name_ok k -> stops is_key_char r -> valid_key_sequence (E := E) (k ++ r) = IOk r k.
  Proof.
    intros k r H S. unfold valid_key_sequence, take_while. rewrite span_app; [easy| |easy]. now apply name_ok_spec.
  Qed.
  Lemma stops_special : forall c r, In c special -> stops is_key_char (c :: r).
  Proof. intros c r H. cbn. now apply special_not_key. Qed.

  Definition closes (s : str) : Prop := exists c r, s = c :: r /\ (c = SEMI \/ c = COLON).
  Lemma closes_special : forall s, closes s -> stops is_key_char s.
  Proof. intros s (c & r & -> & [->| ->]); apply stops_special; cbn; tauto. Qed.

  Lemma space0_none : forall c r, c <> SP -> c <> TAB -> space0 (E := E) (c :: r) = IOk (c :: r) [].
  Proof.
    intros c r H1 H2. unfold space0, take_while. cbn [span]. replace (c =? SP)%N with false by lia.
    now replace (c =? TAB)%N with false by lia.
  Qed.
  Lemma space0_name : forall k s, name_ok k -> (forall c r, s = c :: r -> c <> SP /\ c <> TAB) ->
    space0 (E := E) (k ++ s) = IOk (k ++ s) [].
  Proof.
    intros [|c k] s H S; cbn [app].
    - destruct s as [|c r]; [easy|]. destruct (S c r eq_refl). now apply space0_none.
    - assert (N : forall d, In d special -> c <> d).
      { intros d I ->. apply (name_no_special _ _ H I). now left. }
      apply space0_none; apply N; cbn; tauto.
  Qed.

  Lemma param_value_plain : forall v s, v <> [] -> ~ In SEMI v -> ~ In COLON v -> ~ has_prefix [DQ] v -> s = [] \/ closes s ->
    param_value (E := E) (v ++ s) = IOk s v.
  Proof.
    intros v s N H1 H2 H3 C. unfold param_value, alt3. destruct v as [|c v]; [easy|]. cbn [app]. cbn [eof].
    assert (D : delimited (tag [DQ]) (take_while1 KIsNot (fun c => negb (c =? DQ)%N)) (tag [DQ]) (c :: v ++ s)
      = IErr (E := E) (from_kind (c :: v ++ s) KTag)).
    { unfold delimited, pbind, tag. replace (starts_with [DQ] (c :: v ++ s)) with false; [easy|].
      symmetry. cbn [starts_with]. destruct (DQ =? c)%N eqn:Q; [|easy]. exfalso. apply H3. apply N.eqb_eq in Q as <-. now exists v. }
    rewrite D. unfold take_while1. change (c :: v ++ s) with ((c :: v) ++ s). rewrite span_app; [easy| |].
    - apply forallb_forall. intros x I. destruct (x =? SEMI)%N eqn:E1; [apply N.eqb_eq in E1 as ->; easy|].
      destruct (x =? COLON)%N eqn:E2; [apply N.eqb_eq in E2 as ->; easy|]. easy.
    - destruct C as [->|(d & r & -> & [->| ->])]; easy.
  Qed.
  Lemma param_value_quoted : forall v s, v <> [] -> ~ In DQ v ->
    param_value (E := E) (DQ :: v ++ DQ :: s) = IOk s v.
  Proof.
    intros v s N H. unfold param_value, alt3. cbn [eof]. unfold delimited, pbind.
    change (DQ :: v ++ DQ :: s) with ([DQ] ++ v ++ DQ :: s). rewrite tag_ok. unfold take_while1.
    rewrite span_app.
    - destruct v as [|c v]; [easy|]. change (DQ :: s) with ([DQ] ++ s). now rewrite tag_ok.
    - apply forallb_forall. intros x I. destruct (x =? DQ)%N eqn:E1; [apply N.eqb_eq in E1 as ->; easy|easy].
    - easy.
  Qed.
  Lemma param_value_empty : forall s, closes s -> exists e, param_value (E := E) s = IErr e.
  Proof. intros s (c & r & -> & [->| ->]); eexists; reflexivity. Qed.

  Lemma parameter_ok : forall q s, wparam_ok q -> s = [] \/ closes s ->
    parameter_p (E := E) (wparam_text q ++ s) = IOk s (wparam_read q).
  Proof.
    intros [k f] s [K F] C. unfold wparam_text, wparam_read, wparam_value. cbn [wp_key wp_form] in *.
    unfold parameter_p, alt2.
    assert (P : forall w, (forall c r, w ++ s = c :: r -> c = EQUALS \/ c = SEMI \/ c = COLON) ->
      preceded (E := E) (pair (tag [SEMI]) space0) valid_key_sequence ((SEMI :: k ++ w) ++ s) = IOk (w ++ s) k).
    { intros w Hw. unfold preceded, pair, pbind, pret. change ((SEMI :: k ++ w) ++ s) with ([SEMI] ++ (k ++ w) ++ s).
      rewrite tag_ok. rewrite <- app_assoc. rewrite space0_name; [|easy|].
      - apply valid_key_ok; [easy|]. destruct (w ++ s) as [|c r] eqn:Ew; [easy|].
        apply stops_special. destruct (Hw c r eq_refl) as [->|[->| ->]]; cbn; tauto.
      - intros c r Ew. destruct (Hw c r Ew) as [->|[->| ->]]; easy. }
    assert (Q : forall w, (forall c r, w ++ s = c :: r -> c = EQUALS \/ c = SEMI \/ c = COLON) ->
      pair_parameter (E := E) ((SEMI :: k ++ w) ++ s)
      = pmap (fun '(k, v) => mk_pparam k v)
          (fun i => pbind (tag [EQUALS]) (fun _ => pbind (pmap remove_empty (opt param_value)) (fun c => pret (k, c))) i)
          (w ++ s)).
    { intros w Hw. unfold pair_parameter. specialize (P w Hw). revert P.
      unfold preceded, pair, separated_pair, pmap, pbind, pret.
      destruct (tag [SEMI] ((SEMI :: k ++ w) ++ s)) as [r o|e|e|]; try easy.
      destruct (space0 r) as [r1 o1|e|e|]; try easy.
      destruct (valid_key_sequence r1) as [r2 o2|e|e|]; try easy. intros X. injection X as -> ->. easy. }
    destruct f as [| |v|v].
    - assert (Hw : forall c r, [] ++ s = c :: r -> c = EQUALS \/ c = SEMI \/ c = COLON).
      { intros c r Es. destruct C as [->|(d & t & Ed & H)]; [easy|]. rewrite Ed in Es. injection Es as <- _. tauto. }
      rewrite Q by easy. change ([] ++ s) with s. unfold pmap at 1, pbind at 1 2.
      assert (T : tag (E := E) [EQUALS] s = IErr (from_kind s KTag)).
      { apply tag_err. destruct C as [->|(d & t & -> & [->| ->])]; reflexivity. }
      rewrite T. unfold base_parameter, pmap at 1, pair at 1, pbind at 1 2. rewrite P by easy. change ([] ++ s) with s.
      unfold pmap, pbind, opt, preceded, pbind. rewrite T. reflexivity.
    - assert (Hw : forall c r, [EQUALS] ++ s = c :: r -> c = EQUALS \/ c = SEMI \/ c = COLON).
      { intros c r Es. injection Es as <- _. tauto. }
      rewrite Q by easy. unfold pmap at 1, pbind at 1 2. rewrite tag_ok. unfold pmap, pbind, opt.
      destruct C as [->|C]; [reflexivity|]. destruct (param_value_empty s C) as [e ->]. reflexivity.
    - destruct F as (F1 & F2 & F3 & F4).
      rewrite Q by (intros c r Es; injection Es as <- _; tauto).
      unfold pmap at 1, pbind at 1 2. change ((EQUALS :: v) ++ s) with ([EQUALS] ++ v ++ s).
      rewrite tag_ok. unfold pmap, pbind, opt. rewrite param_value_plain by easy. now destruct v.
    - destruct F as (F1 & F2).
      rewrite Q by (intros c r Es; injection Es as <- _; tauto).
      unfold pmap at 1, pbind at 1 2. change ((EQUALS :: DQ :: v ++ [DQ]) ++ s) with ([EQUALS] ++ DQ :: (v ++ [DQ]) ++ s).
      rewrite <- app_assoc. cbn [app]. change (EQUALS :: DQ :: v ++ DQ :: s) with ([EQUALS] ++ DQ :: v ++ DQ :: s).
      rewrite tag_ok. unfold pmap, pbind, opt. rewrite param_value_quoted by easy. now destruct v.
  Qed.

  Lemma parameters_end : forall r, exists e, parameter_p (E := E) (COLON :: r) = IErr e.
  Proof. intros r. eexists. reflexivity. Qed.
  Lemma parameters_ok : forall qs r, Forall wparam_ok qs ->
    parameters (E := E) (concat (map wparam_text qs) ++ COLON :: r) = IOk (COLON :: r) (map wparam_read qs).
  Proof.
    intros qs r H. unfold parameters.
    assert (G : forall fuel, length qs < fuel ->
      many0 fuel (parameter_p (E := E)) (concat (map wparam_text qs) ++ COLON :: r) = IOk (COLON :: r) (map wparam_read qs)).
    { induction H as [|q qs Hq _ IH]; intros fuel L; (destruct fuel as [|f]; [cbn in L; lia|]).
      - cbn [map concat app many0]. destruct (parameters_end r) as [e ->]. easy.
      - cbn [map concat many0]. rewrite <- app_assoc. rewrite parameter_ok; [|easy|].
        + rewrite longer by easy.
          rewrite IH; [easy|]. cbn in L. lia.
        + destruct qs as [|q' qs]; cbn [map concat app]; [right; exists COLON, r; auto|]. right.
          unfold wparam_text. cbn [app]. eexists SEMI, _. auto. }
    apply G. rewrite app_length. clear. induction qs as [|q qs IH]; cbn [map concat length app]; [lia|].
    rewrite app_length. unfold wparam_text at 1. cbn [length] in *. lia.
  Qed.

  (** ** Property lines *)

  Lemma prefix_key : forall p k s, forallb is_key_char p = true -> stops is_key_char s ->
    starts_with p (k ++ s) = true -> has_prefix p k.
  Proof.
    induction p as [|a p IH]; intros k s K S H; [now exists k|]. cbn [forallb] in K. apply andb_true_iff in K as [K1 K2].
    destruct k as [|c k]; cbn [app] in H.
    - destruct s as [|c s]; cbn [starts_with] in H; [easy|]. apply andb_true_iff in H as [H _].
      apply N.eqb_eq in H as ->. cbn in S. congruence.
    - cbn [starts_with] in H. apply andb_true_iff in H as [H1 H2]. apply N.eqb_eq in H1 as ->.
      destruct (IH k s K2 S H2) as [r ->]. now exists r.
  Qed.
  Lemma property_key_ok : forall k s, prop_name_ok k -> stops is_key_char s -> property_key (E := E) (k ++ s) = IOk s k.
  Proof.
    intros k s (K & H1 & H2 & _) S. unfold property_key.
    destruct (starts_with (lit "END") (k ++ s)) eqn:E1.
    { exfalso. apply H1. eapply prefix_key; [| |exact E1]; easy. }
    destruct (starts_with (lit "BEGIN") (k ++ s)) eqn:E2.
    { exfalso. apply H2. eapply prefix_key; [| |exact E2]; easy. }
    cbn [orb]. now apply valid_key_ok.
  Qed.
  Lemma multispace0_none : forall s, (forall c r, s = c :: r -> ~ In c [SP; TAB; CR; LF]) ->
    multispace0 (E := E) s = IOk s [].
  Proof.
    intros [|c s] H; [easy|]. specialize (H c s eq_refl). cbn in H. unfold multispace0, take_while. cbn [span].
    replace (c =? SP)%N with false by lia. replace (c =? TAB)%N with false by lia.
    replace (c =? CR)%N with false by lia. now replace (c =? LF)%N with false by lia.
  Qed.
  Lemma name_head : forall k s c r, name_ok k -> k ++ s = c :: r -> (k = [] /\ s = c :: r) \/ ~ In c special.
  Proof.
    intros [|d k] s c r H E1; cbn [app] in E1; [now left|]. right. injection E1 as -> _. intros I.
    apply (name_no_special _ _ H I). now left.
  Qed.

  Lemma concat_params_head : forall qs v, closes (concat (map wparam_text qs) ++ COLON :: v).
  Proof.
    intros [|q qs] v; cbn [map concat app]; [exists COLON, v; auto|]. unfold wparam_text. cbn [app].
    eexists SEMI, _. auto.
  Qed.

  (** What follows a value: the rest of the document starts with the line end. *)
  Definition value_p : parser E str :=
    context "property value" (alt3 (take_until [CR; LF]) (take_until [LF]) (take_while (fun _ => true))).
  Lemma value_ok : forall y v e rest, line_end y e ->
    match y with CrLf => ~ has_crlf v | Lf => ~ In LF v end ->
    (y = Lf -> ~ has_crlf (v ++ e ++ rest)) -> value_p (v ++ e ++ rest) = IOk (e ++ rest) v.
  Proof.
    intros [|] v e rest H V C; unfold value_p, context, alt3, take_until.
    - destruct H as (b & -> & _). cbn [app]. now rewrite find_crlf.
    - destruct H as (n & ->). rewrite find_crlf_none by now apply C. cbn [app]. now rewrite find_lf.
  Qed.
  Lemma line_end_cut : forall y e, line_end y e -> exists b x, e = b ++ x /\ break b /\ breaks x.
  Proof.
    intros [|] e; cbn.
    - intros (b & -> & B). exists [CR; LF], b. split; [easy|]. split; [now left|easy].
    - intros (n & ->). exists [LF], (repeat LF n). split; [easy|]. split; [now right|].
      induction n as [|n IH]; cbn [repeat]; [constructor|]. apply (bk_cons [LF]); [now right|easy].
  Qed.
  Lemma line_end_head : forall y e s, line_end y e -> exists c r, e ++ s = c :: r /\ (c = CR \/ c = LF).
  Proof.
    intros y e s H. apply line_end_breaks in H as [H1 H2]. destruct (breaks_head e H1 H2) as (c & r & -> & D).
    cbn [app]. eauto.
  Qed.

  Lemma property_text_ok : forall y l e rest, wline_ok y l -> line_end y e ->
    (y = Lf -> ~ has_crlf (wline_text l ++ e ++ rest)) ->
    exists x, breaks x /\ property_p (E := E) (wline_text l ++ e ++ rest) = IOk (x ++ rest) (wline_read l).
  Proof.
    intros y l e rest L H C. destruct (line_end_cut y e H) as (b & x & Ee & B & X). exists x. split; [easy|].
    unfold property_p, context at 1, cut at 1, pmap at 1, pair at 1, pbind at 1 2.
    destruct l as [k qs v|k]; cbn [wline_text wline_read] in *.
    - destruct L as (K & Q & V).
      assert (T : (k ++ concat (map wparam_text qs) ++ COLON :: v) ++ e ++ rest
        = k ++ concat (map wparam_text qs) ++ COLON :: v ++ e ++ rest).
      { now rewrite <- !app_assoc. }
      rewrite T in *. clear T. set (tl := concat (map wparam_text qs) ++ COLON :: v ++ e ++ rest) in *.
      assert (Cl : closes tl) by apply concat_params_head.
      unfold alt2 at 1. unfold separated_pair at 1, pbind at 1, pair at 1, pbind at 1.
      unfold cut at 1, context at 1, preceded at 1, pbind at 1.
      rewrite multispace0_none.
      2:{ intros c r Ec I. destruct (name_head k tl c r (proj1 K) Ec) as [[-> E2]|E2].
          - destruct Cl as (d & t & Ed & D). rewrite Ed in E2. injection E2 as -> _.
            cbn in I. destruct D as [->| ->]; repeat (destruct I as [I|I]; [discriminate I|]); easy.
          - apply E2. cbn in I |- *. tauto. }
      rewrite property_key_ok; [|easy|now apply closes_special].
      unfold pbind at 1. unfold tl. rewrite parameters_ok by easy. unfold pret at 1.
      unfold pbind at 1. unfold context at 1. change (COLON :: v ++ e ++ rest) with ([COLON] ++ v ++ e ++ rest).
      rewrite tag_ok. unfold pbind at 1. fold value_p. rewrite (value_ok y v e rest H V).
      2:{ intros Y. specialize (C Y). intros (a & z & Ea). apply C.
          exists (k ++ concat (map wparam_text qs) ++ COLON :: a), z. unfold tl.
          rewrite Ea, <- !app_assoc. cbn [app]. easy. }
      unfold pret at 1. unfold pbind at 1. unfold opt. rewrite Ee, <- app_assoc, line_ending_ok by easy.
      unfold pret. reflexivity.
    - destruct L as (K & N).
      destruct (line_end_head y e rest H) as (c & r & Ec & D).
      assert (S : stops is_key_char (e ++ rest)).
      { rewrite Ec. apply stops_special. cbn. destruct D as [->| ->]; tauto. }
      assert (A : exists er, separated_pair (E := E)
                (pair (cut (context "property cannot be END or BEGIN" (preceded multispace0 property_key))) parameters)
                (context "property separator" (tag [COLON])) value_p (k ++ e ++ rest) = IErr er).
      { unfold separated_pair, pbind at 1, pair at 1, pbind at 1, cut at 1, context at 1, preceded at 1, pbind at 1.
        rewrite multispace0_none.
        2:{ intros d t Ed I. destruct (name_head k _ d t (proj1 K) Ed) as [[-> _]|E2]; [easy|].
            apply E2. cbn in I |- *. tauto. }
        rewrite property_key_ok by easy. unfold pbind at 1. rewrite Ec. unfold parameters. cbn [many0].
        assert (P : exists er, parameter_p (E := E) (c :: r) = IErr er).
        { destruct D as [->| ->]; eexists; reflexivity. }
        destruct P as [er ->]. unfold pret at 1. unfold pbind at 1, context at 1.
        rewrite tag_err; [eauto|]. now destruct D as [->| ->]. }
      destruct A as [er A]. fold value_p. unfold alt2 at 1. rewrite A.
      unfold context at 1, pmap at 1, pbind at 1. rewrite valid_key_ok by (easy || apply K).
      unfold pret at 1 2. unfold pbind at 1. unfold opt. rewrite Ee, <- app_assoc, line_ending_ok by easy.
      unfold pret. f_equal. unfold decode_value. now destruct (determin_value_type k []) as [[]|].
  Qed.

  (** ** Components *)

  Lemma not_keyword : forall w k s, ~ In COLON k -> s <> [] -> (forall c r, s = c :: r -> ~ In (lower_ascii c) w) ->
    starts_with (w ++ [COLON]) (map lower_ascii (k ++ s)) = true -> map lower_ascii k = w.
  Proof.
    induction w as [|a w IH]; intros [|c k] s K N S H; cbn [app map starts_with] in H; try easy.
    - apply andb_true_iff in H as [H _]. apply N.eqb_eq in H. symmetry in H. apply lower_colon in H as ->.
      exfalso. apply K. now left.
    - destruct s as [|d s]; [easy|]. cbn [map starts_with] in H. apply andb_true_iff in H as [H _].
      apply N.eqb_eq in H. exfalso. apply (S d s eq_refl). now left.
    - apply andb_true_iff in H as [H1 H2]. apply N.eqb_eq in H1. cbn [map]. f_equal; [easy|].
      apply (IH k s); try easy; [intros I; apply K; now right|]. intros d r Ed I. apply (S d r Ed). now right.
  Qed.
  Lemma wline_head : forall y l e s, wline_ok y l -> line_end y e ->
    exists k t, wline_text l ++ e ++ s = k ++ t /\ prop_name_ok k /\ (k ++ t <> [])
      /\ (exists c r, t = c :: r /\ (In c [SEMI; COLON] \/ k <> [] /\ In c [CR; LF])).
  Proof.
    intros y l e s L H. destruct l as [k qs v|k]; cbn [wline_text].
    - destruct L as (K & _). destruct (concat_params_head qs (v ++ e ++ s)) as (c & r & Ec & D).
      exists k, (concat (map wparam_text qs) ++ COLON :: v ++ e ++ s).
      split; [now rewrite <- !app_assoc|]. split; [easy|].
      rewrite Ec. split; [now destruct k|]. exists c, r. split; [easy|]. left. cbn. destruct D; auto.
    - destruct L as (K & N). destruct (line_end_head y e s H) as (c & r & Ec & D).
      exists k, (e ++ s). split; [easy|]. split; [easy|]. split; [now destruct k|]. exists c, r. split; [easy|].
      right. split; [easy|]. cbn. destruct D; auto.
  Qed.
  Lemma wline_no_keyword : forall y l e s, wline_ok y l -> line_end y e ->
    starts_with (lit "end:") (map lower_ascii (wline_text l ++ e ++ s)) = false
    /\ starts_with (lit "begin:") (map lower_ascii (wline_text l ++ e ++ s)) = false
    /\ no_break (wline_text l ++ e ++ s).
  Proof.
    intros y l e s L H. destruct (wline_head y l e s L H) as (k & t & -> & (K & _ & _ & K1 & K2) & N & c & r & -> & D).
    assert (S : forall w, forallb is_lower_ascii w = true -> map lower_ascii k <> w ->
      starts_with (w ++ [COLON]) (map lower_ascii (k ++ c :: r)) = false).
    { intros w Hw NE. destruct (starts_with _ _) eqn:Q; [|easy]. exfalso. apply NE. revert Q. apply not_keyword; try easy.
      - apply name_no_special; [easy|]. cbn. tauto.
      - intros c' r' E' I. injection E' as <- <-. rewrite forallb_forall in Hw. apply Hw in I. revert I.
        cbn in D. destruct D as [D|[_ D]]; repeat (destruct D as [<-|D]; [discriminate|]); easy. }
    split; [now apply (S (lit "end"))|]. split; [now apply (S (lit "begin"))|].
    destruct k as [|d k].
    - cbn [app]. destruct D as [D|[D _]]; [|easy]. cbn in D. destruct D as [<-|[<-|[]]]; now apply no_break_head.
    - cbn [app]. assert (Nd : forall x, In x special -> d <> x).
      { intros x I ->. apply (name_no_special _ _ K I). now left. }
      apply no_break_head; apply Nd; cbn; tauto.
  Qed.

  Lemma lower_head : forall w k, map lower_ascii k = w -> forall a w', w = a :: w' ->
    exists c k', k = c :: k' /\ lower_ascii c = a.
  Proof. intros w [|c k] H a w' E1; subst; [easy|]. injection E1 as <- <-. eauto. Qed.
  Lemma keyword_no_break : forall k s, (exists w, map lower_ascii k = lit w /\ (w = "begin:" \/ w = "end:")%string) ->
    no_break (k ++ s).
  Proof.
    intros k s (w & H & D). destruct k as [|c k]; [destruct D as [->| ->]; easy|]. cbn [app].
    apply no_break_head; intros ->; destruct D as [->| ->]; easy.
  Qed.
  Lemma begin_not_end : forall k s, map lower_ascii k = lit "begin:" ->
    starts_with (lit "end:") (map lower_ascii (k ++ s)) = false.
  Proof. intros k s H. now rewrite map_app, H. Qed.
  Lemma end_not_begin : forall k s, map lower_ascii k = lit "end:" ->
    starts_with (lit "begin:") (map lower_ascii (k ++ s)) = false.
  Proof. intros k s H. now rewrite map_app, H. Qed.

  Lemma component_not_begin : forall fuel i j, skips i j -> starts_with (lit "begin:") (map lower_ascii j) = false ->
    exists e, component (E := E) (S fuel) i = IErr e.
  Proof.
    intros fuel i j S H. cbn [component]. unfold pbind at 1, line.
    rewrite (line_separated_err _ _ _ _ (from_kind j KTag) S); [eauto|].
    unfold preceded, pbind. now rewrite tag_no_case_err.
  Qed.
  Lemma end_line_err : forall A (p : parser E A) i j, skips i j -> starts_with (lit "end:") (map lower_ascii j) = false ->
    exists e, line (E := E) (lit "END:") p i = IErr e.
  Proof.
    intros A p i j S H. unfold line. rewrite (line_separated_err _ _ _ _ (from_kind j KTag) S); [eauto|].
    unfold preceded, pbind. now rewrite tag_no_case_err.
  Qed.

  Definition child_of (x : wline + wtree) : child :=
    match x with inl l => inr (wline_read l) | inr t => inl (wtree_read t) end.
  Lemma children_read : forall its,
    children_props (map child_of its) = flat_map (fun x => match x with inl l => [wline_read l] | inr _ => [] end) its
    /\ children_comps (map child_of its) = flat_map (fun x => match x with inl _ => [] | inr t => [wtree_read t] end) its.
  Proof.
    induction its as [|[l|t] its [IH1 IH2]]; [easy| |]; unfold children_props, children_comps in *;
      cbn [map child_of flat_map app]; now rewrite IH1, IH2.
  Qed.

  (** The two parsers of the loop. *)
  Definition body_p (f : nat) : parser E child :=
    cut (context "component" (alt2 (line_separated (pmap inl (component f))) (line_separated (pmap inr property_p)))).
  Definition end_p (n : str) : parser E str := line (lit "END:") (cut (context "mismatching end" (tag n))).

  Lemma body_line : forall y f l e rest, wline_ok y l -> line_end y e -> no_break rest ->
    (y = Lf -> ~ has_crlf (wline_text l ++ e ++ rest)) ->
    body_p (S f) (wline_text l ++ e ++ rest) = IOk rest (inr (wline_read l)).
  Proof.
    intros y f l e rest L H R C. destruct (wline_no_keyword y l e rest L H) as (_ & B & Nb).
    unfold body_p, cut, context, alt2.
    destruct (component_not_begin f _ _ (skips_none _ Nb) B) as [er Er].
    assert (A : line_separated (pmap inl (component (S f))) (wline_text l ++ e ++ rest) = IErr (O := child) er).
    { eapply line_separated_err; [now apply skips_none|]. unfold pmap, pbind. now rewrite Er. }
    rewrite A. destruct (property_text_ok y l e rest L H C) as (x & X & P).
    rewrite (line_separated_ok _ _ _ _ (x ++ rest) rest (inr (wline_read l)) (skips_none _ Nb)); [easy| |].
    - unfold pmap, pbind. now rewrite P.
    - now apply skips_breaks.
  Qed.

  Lemma wtree_deep : forall P : wtree -> Prop,
    (forall n its, (forall t, In (inr t) its -> P t) -> P (W n its)) -> forall t, P t.
  Proof.
    intros P H. assert (G : forall t, P t); [|exact G]. fix F 1. intros [n its]. apply H.
    assert (A : Forall (fun x => match x with inl _ => True | inr t => P t end) its).
    { induction its as [|[l|t] its IH]; constructor; [exact I|exact IH|apply F|exact IH]. }
    intros t I. rewrite Forall_forall in A. exact (A _ I).
  Qed.

  Lemma has_crlf_app_r : forall a b, has_crlf b -> has_crlf (a ++ b).
  Proof. intros a b (x & z & ->). exists (a ++ x), z. now rewrite <- app_assoc. Qed.

  Lemma wtree_text_no_break : forall y t s r, wtree_text y t s ->
    no_break (s ++ r) /\ starts_with (lit "end:") (map lower_ascii (s ++ r)) = false /\ s <> [].
  Proof.
    intros y t s r H. inversion H; subst. rewrite <- !app_assoc. split; [|split].
    - apply keyword_no_break. eauto.
    - now apply begin_not_end.
    - now destruct kb.
  Qed.

  Definition items_text (y : style) := Forall2 (either2 (fun l s => exists e, line_end y e /\ s = wline_text l ++ e) (wtree_text y)).
  Definition items_ok (y : style) := Forall (either (wline_ok y) (wtree_ok y)).

  Lemma item_start : forall y x s r, either (wline_ok y) (wtree_ok y) x ->
    either2 (fun l s => exists e, line_end y e /\ s = wline_text l ++ e) (wtree_text y) x s ->
    no_break (s ++ r) /\ starts_with (lit "end:") (map lower_ascii (s ++ r)) = false /\ s <> [].
  Proof.
    intros y x s r O T. inversion T as [l s' (e & He & Hs)|t s' Ht]; subst.
    - inversion O as [l' L|]; subst. rewrite <- app_assoc. destruct (wline_no_keyword y l e r L He) as (A & _ & B).
      split; [easy|]. split; [easy|]. apply line_end_breaks in He as [_ He]. intros Q. now apply app_eq_nil in Q as [_ Q].
    - eapply wtree_text_no_break; eauto.
  Qed.
  Lemma items_start : forall y its ss tail, items_ok y its -> items_text y its ss -> no_break tail -> no_break (concat ss ++ tail).
  Proof.
    intros y its ss tail O T N. destruct T as [|x s its ss Tx T]; [easy|]. inversion O; subst. cbn [concat].
    rewrite <- app_assoc. eapply item_start; eauto.
  Qed.

  Lemma end_ok : forall y n ke ee rest, map lower_ascii ke = lit "end:" -> line_end y ee -> no_break rest ->
    end_p n (ke ++ n ++ ee ++ rest) = IOk rest n.
  Proof.
    intros y n ke ee rest H L R. unfold end_p, line. apply (line_separated_ok _ _ _ (ke ++ n ++ ee ++ rest) (ee ++ rest)).
    - apply skips_none, keyword_no_break. eauto.
    - unfold preceded, pbind. rewrite tag_no_case_ok by easy. unfold cut, context. now rewrite tag_ok.
    - apply skips_breaks; [now apply line_end_breaks in L|easy].
  Qed.

  Lemma items_parse : forall y f n its ss ke ee rest,
    (forall t, In (inr t) its -> wtree_ok y t -> forall s, wtree_text y t s -> forall rest, no_break rest ->
       (y = Lf -> ~ has_crlf (s ++ rest)) -> length s <= f -> component (E := E) (S f) (s ++ rest) = IOk rest (wtree_read t)) ->
    items_ok y its -> items_text y its ss -> (forall s, In s ss -> length s <= f) ->
    map lower_ascii ke = lit "end:" -> line_end y ee -> no_break rest ->
    (y = Lf -> ~ has_crlf (concat ss ++ ke ++ n ++ ee ++ rest)) ->
    forall fuel, length its < fuel ->
    many_till fuel (body_p (S f)) (end_p n) (concat ss ++ ke ++ n ++ ee ++ rest) = IOk rest (map child_of its, n).
  Proof.
    intros y f n its ss ke ee rest IHt O T. revert IHt O.
    assert (Nt : map lower_ascii ke = lit "end:" -> no_break (ke ++ n ++ ee ++ rest)).
    { intros H. apply keyword_no_break. eauto. }
    induction T as [|x s its ss Tx T IH]; intros IHt O Ls Hke Hee R C fuel F; (destruct fuel as [|fuel]; [cbn in F; lia|]).
    - cbn [concat app many_till map]. now rewrite (end_ok y).
    - inversion O as [|? ? Ox O']; subst. cbn [concat] in *. rewrite <- app_assoc in *. cbn [many_till].
      set (tail := concat ss ++ ke ++ n ++ ee ++ rest) in *.
      destruct (item_start y x s tail Ox Tx) as (N1 & N2 & N3).
      assert (Ntail : no_break tail) by (apply (items_start y its); auto).
      assert (Ctail : y = Lf -> ~ has_crlf tail).
      { intros Y K. apply (C Y). now apply has_crlf_app_r. }
      destruct (end_line_err _ (cut (context "mismatching end" (tag n))) _ _ (skips_none _ N1) N2) as [er Er].
      unfold end_p at 1. rewrite Er.
      assert (B : body_p (S f) (s ++ tail) = IOk tail (child_of x)).
      { inversion Tx as [l s' (e & He & Hs)|t s' Ht]; subst.
        - inversion Ox; subst. rewrite <- app_assoc in *. cbn [child_of]. now apply (body_line y).
        - inversion Ox; subst. cbn [child_of]. unfold body_p, cut, context, alt2.
          rewrite (line_separated_ok _ _ _ _ tail tail (inl (wtree_read t)) (skips_none _ N1)); [easy| |now apply skips_none].
          unfold pmap, pbind. rewrite (IHt t); try easy; [now left|]. apply Ls. now left. }
      rewrite B, longer by easy. unfold tail. rewrite IH; try easy.
      + intros t I. apply IHt. now right.
      + intros s' I. apply Ls. now right.
      + cbn in F. lia.
  Qed.

  Lemma items_length : forall y its ss, items_ok y its -> items_text y its ss -> length its <= length (concat ss).
  Proof.
    intros y its ss O T. revert O. induction T as [|x s its ss Tx T IH]; intros O; [easy|]. inversion O; subst.
    cbn [concat length]. rewrite app_length. specialize (IH H2). destruct (item_start y x s [] H1 Tx) as (_ & _ & N).
    destruct s; [easy|]. cbn [length]. lia.
  Qed.
  Lemma in_concat_length : forall (ss : list str) s, In s ss -> length s <= length (concat ss).
  Proof.
    induction ss as [|a ss IH]; intros s I; [easy|]. cbn [concat]. rewrite app_length. destruct I as [->|I]; [lia|].
    apply IH in I. lia.
  Qed.

  Theorem component_text_ok : forall y t, wtree_ok y t -> forall s, wtree_text y t s -> forall b rest fuel,
    breaks b -> no_break rest -> (y = Lf -> ~ has_crlf (s ++ rest)) -> length s <= fuel ->
    component (E := E) (S fuel) (b ++ s ++ rest) = IOk rest (wtree_read t).
  Proof.
    intros y. induction t as [n its IH] using wtree_deep. intros O s T b rest fuel B R C F.
    inversion O as [? ? Hn Hits]; subst. inversion T as [? ? kb ke eb ee ss Hkb Hke Heb Hee Hss]; subst. clear T.
    assert (Lb : kb <> []) by now destruct kb.
    rewrite <- !app_assoc in *. cbn [component].
    set (tail := concat ss ++ ke ++ n ++ ee ++ rest) in *.
    assert (Nt : no_break (ke ++ n ++ ee ++ rest)) by (apply keyword_no_break; eauto).
    assert (Ntail : no_break tail) by (eapply items_start; eauto).
    unfold pbind at 1. unfold line at 1.
    rewrite (line_separated_ok _ _ _ (kb ++ n ++ eb ++ tail) (eb ++ tail) tail n).
    2:{ apply skips_breaks; [easy|]. apply keyword_no_break. eauto. }
    2:{ unfold preceded, pbind. rewrite tag_no_case_ok by easy. apply valid_key_ok; [easy|].
        destruct (line_end_head y eb tail Heb) as (c & r & -> & D). apply stops_special. cbn. destruct D as [->| ->]; tauto. }
    2:{ apply skips_breaks; [now apply line_end_breaks in Heb|easy]. }
    unfold pbind at 1. cbv beta. fold (body_p fuel). fold (end_p n).
    rewrite !app_length in F.
    assert (Cc : y = Lf -> ~ has_crlf tail).
    { intros Y K. apply (C Y). do 3 apply has_crlf_app_r. exact K. }
    destruct fuel as [|f]; [destruct kb; [easy|cbn [length] in F; lia]|].
    rewrite (items_parse y f n its ss ke ee rest); try easy.
    - unfold pbind at 1. cbn [many0].
      rewrite tag_err by apply R. unfold pret. cbn [wtree_read]. destruct (children_read its) as [-> ->]. reflexivity.
    - intros t I Ot s Ts r Rr Cr L. apply (IH t I Ot s Ts [] r f); try easy. constructor.
    - intros s I. apply in_concat_length in I. destruct kb; [easy|]. cbn [length] in F. lia.
    - apply (items_length y) with (2 := Hss) in Hits. unfold tail. rewrite app_length. lia.
  Qed.
End Lines.
