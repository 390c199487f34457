(** Errors: when parsing a property fails; the error type does not matter. *)
From Verif Require Import Str StrFacts Spec ValueTypes Property Chrono DateTime Component Calendar Nom Parser SpecDoc
  ParserProofs TotalProofs ReadProofs AcceptProofs.
From Coq Require Import ZifyBool ZifyNat ZifyN.

(** ** Properties *)

Section NoFail.
  Context {U : Unicode} {E : Type} {PE : PErr E}.
  Definition no_fail {A} (p : parser E A) : Prop := forall i e, p i <> IFail e.
  Lemma nf_bind : forall A B (p : parser E A) (f : A -> parser E B), no_fail p -> (forall a, no_fail (f a)) -> no_fail (pbind p f).
  Proof. intros A B p f H F i e. unfold pbind. pose proof (H i) as Q. destruct (p i) as [r a|x|x|]; try easy; [apply F|]. now destruct (Q x). Qed.
  Lemma nf_ret : forall A (a : A), no_fail (pret a).
  Proof. easy. Qed.
  Lemma nf_map : forall A B (f : A -> B) (p : parser E A), no_fail p -> no_fail (pmap f p).
  Proof. intros. apply nf_bind; [easy|]. intros. apply nf_ret. Qed.
  Lemma nf_alt2 : forall A (p q : parser E A), no_fail p -> no_fail q -> no_fail (alt2 p q).
  Proof. intros A p q P Q i e. unfold alt2. specialize (P i e). specialize (Q i e). destruct (p i); try easy. now destruct (q i). Qed.
  Lemma nf_alt3 : forall A (p q s : parser E A), no_fail p -> no_fail q -> no_fail s -> no_fail (alt3 p q s).
  Proof.
    intros A p q s P Q S i e. unfold alt3. specialize (P i e). specialize (Q i e). specialize (S i e).
    destruct (p i); try easy. destruct (q i); try easy. now destruct (s i).
  Qed.
  Lemma nf_opt : forall A (p : parser E A), no_fail p -> no_fail (opt p).
  Proof. intros A p P i e. unfold opt. specialize (P i e). destruct (p i); try easy. intros H. injection H as ->. easy. Qed.
  Lemma nf_context : forall A c (p : parser E A), no_fail p -> no_fail (context c p).
  Proof. intros A c p P i e. unfold context. pose proof (P i) as H. destruct (p i); try easy. now destruct (H e0). Qed.
  Lemma nf_many0 : forall A (p : parser E A), no_fail p -> forall f, no_fail (many0 f p).
  Proof.
    intros A p P. induction f as [|f IH]; intros i e; cbn [many0]; [easy|]. pose proof (P i) as Q.
    destruct (p i) as [r a|x|x|]; try easy; [|now destruct (Q x)]. destruct (length r =? length i); [easy|]. specialize (IH r e).
    now destruct (many0 f p r).
  Qed.
  Lemma nf_tag : forall t, no_fail (tag t).
  Proof. intros t i e. unfold tag. now destruct (starts_with t i). Qed.
  Lemma nf_take_while : forall f, no_fail (take_while f).
  Proof. intros f i e. unfold take_while. now destruct (span f i). Qed.
  Lemma nf_take_while1 : forall k f, no_fail (take_while1 k f).
  Proof. intros k f i e. unfold take_while1. now destruct (span f i) as [[|c a] r]. Qed.
  Lemma nf_take_until : forall t, no_fail (take_until t).
  Proof. intros t i e. unfold take_until. now destruct (find_sub t i) as [[a r]|]. Qed.
  Lemma nf_line_ending : no_fail line_ending.
  Proof. intros i e. unfold line_ending. destruct (starts_with [LF] i); [easy|]. now destruct (starts_with [CR; LF] i). Qed.
  Lemma nf_param_value : no_fail param_value.
  Proof.
    apply nf_alt3.
    - now intros [|c i] e.
    - apply nf_bind; [apply nf_tag|]. intros _. apply nf_bind; [apply nf_take_while1|]. intros x.
      apply nf_bind; [apply nf_tag|]. intros _. apply nf_ret.
    - apply nf_take_while1.
  Qed.
  Lemma nf_parameters : no_fail parameters.
  Proof.
    intros i. apply nf_many0. apply nf_alt2; apply nf_map.
    - repeat (apply nf_bind; [|intros ?]); try apply nf_tag; try apply nf_take_while; try apply nf_ret.
      apply nf_opt, nf_param_value.
    - repeat (apply nf_bind; [|intros ?]); try apply nf_tag; try apply nf_take_while; try apply nf_ret.
      apply nf_opt, nf_bind; [apply nf_tag|]. intros _. apply nf_param_value.
  Qed.
  Definition white (s : str) : Prop := Forall (fun c => In c [SP; TAB; CR; LF]) s.
  Lemma white_span : forall w s, white w -> (forall c r, s = c :: r -> ~ In c [SP; TAB; CR; LF]) ->
    multispace0 (E := E) (w ++ s) = IOk s w.
  Proof.
    intros w s W H. unfold multispace0, take_while. rewrite span_app; [easy| |].
    - apply forallb_forall. intros c I. unfold white in W. rewrite Forall_forall in W. apply W in I. cbn in I. lia.
    - destruct s as [|c s]; [easy|]. specialize (H c s eq_refl). cbn in H. cbn. lia.
  Qed.
  Lemma property_error : forall i, match property_p (E := E) i with
    | IOk _ _ => ~ exists w r, white w /\ (i = w ++ lit "END" ++ r \/ i = w ++ lit "BEGIN" ++ r)
    | IFail _ => exists w r, white w /\ (i = w ++ lit "END" ++ r \/ i = w ++ lit "BEGIN" ++ r)
    | _ => False
    end.
  Proof.
    intros i. assert (exists w s, i = w ++ s /\ white w /\ forall c r, s = c :: r -> ~ In c [SP; TAB; CR; LF]) as (w & s & -> & W & S).
    { unfold white. induction i as [|c i IH]; [exists [], []; repeat split; [constructor|easy]|].
      destruct (in_dec N.eq_dec c [SP; TAB; CR; LF]) as [I|I].
      - destruct IH as (w & s & -> & W & S). exists (c :: w), s. repeat split; [now constructor|easy].
      - exists [], (c :: i). repeat split; [constructor|]. intros d r Q. now injection Q as <- _. }
    unfold property_p. unfold context at 1, cut at 1. unfold pmap at 1, pbind at 1. unfold pair at 1, pbind at 1.
    unfold alt2. unfold separated_pair at 1, pbind at 1. unfold pair at 1, pbind at 1. unfold cut at 1, context at 1.
    unfold preceded at 1, pbind at 1. rewrite (white_span w s W S). unfold property_key.
    assert (Same : forall t v r, white v -> lit t <> [] -> (forall c u, lit t = c :: u -> ~ In c [SP; TAB; CR; LF]) ->
      w ++ s = v ++ lit t ++ r -> v = w /\ s = lit t ++ r).
    { intros t. generalize (lit t). clear t. intros t v. revert w W. induction v as [|a v IH]; intros w W r V T1 T2 Q.
      - destruct w as [|b w]; [easy|]. destruct t as [|c t]; [easy|]. cbn [app] in Q. injection Q as -> Q.
        inversion W; subst. exfalso. now apply (T2 c t).
      - destruct w as [|b w]; cbn [app] in Q.
        + exfalso. apply (S a _ Q). now inversion V.
        + injection Q as -> Q. inversion W; inversion V; subst. destruct (IH w H2 r) as [-> ->]; easy. }
    destruct (starts_with (lit "END") s || starts_with (lit "BEGIN") s) eqn:B.
    - exists w. apply orb_true_iff in B as [B|B]; apply starts_with_spec in B as [r ->]; exists r; auto.
    - assert (NB : ~ exists w' r, white w' /\ (w ++ s = w' ++ lit "END" ++ r \/ w ++ s = w' ++ lit "BEGIN" ++ r)).
      { intros (w' & r & W' & [Q|Q]); apply Same in Q as [_ ->]; try easy; try (intros c u Q'; injection Q' as <- _; intros [H|[H|[H|[H|[]]]]]; discriminate H).
        all: rewrite starts_with_app in B; now destruct (starts_with _ _). }
      unfold valid_key_sequence at 1. unfold take_while at 1. destruct (span is_key_char s) as [k r].
      match goal with |- context [match ?m with IOk _ _ => _ | IErr _ => match context "no-value property" _ _ with _ => _ end | IFail _ => _ | IFuel => _ end] =>
        assert (M : (forall e, m <> IFail e) /\ m <> IFuel); [|destruct m as [r1 a|e|e|]] end.
      + split.
        * intros e. apply (nf_bind _ _ (pbind parameters (fun b : list pparam => pret (k, b)))).
          -- apply nf_bind; [apply nf_parameters|]. intros a. apply nf_ret.
          -- intros a. apply nf_bind; [apply nf_context, nf_tag|]. intros _.
             apply nf_bind; [apply nf_context, nf_alt3; try apply nf_take_until; apply nf_take_while|]. intros c. apply nf_ret.
        * assert (G : sound (E := E) (fun _ _ => True) (fun _ => True) r (separated_pair (pmap (fun b => (k, b)) parameters)
            (context "property separator" (tag [COLON]))
            (context "property value" (alt3 (take_until [CR; LF]) (take_until [LF]) (take_while (fun _ => true)))) r)).
          { apply (good_true _ _ (Datatypes.S (length r)) (fun x => True /\ True)); [|lia].
            apply (good_separated (fun _ _ => True)) with (P := fun _ => True) (R := fun _ => True) (Q := fun _ => True); try easy.
            - apply (good_map (fun _ _ => True)) with (P := Forall param_keyed); try easy. now apply good_parameters.
            - apply good_context; try easy. now apply good_tag.
            - apply good_context; try easy. apply good_alt3; try easy; try now apply good_take_until.
              eapply good_true. now apply good_take_while. }
          match type of G with sound _ _ _ ?x => assert (X : x <> IFuel) by (intros X; now rewrite X in G) end.
          exact X.
      + unfold pbind, opt. pose proof (nf_line_ending r1) as L. unfold line_ending in *.
        destruct (starts_with [LF] r1); [easy|]. now destruct (starts_with [CR; LF] r1).
      + unfold context at 1, pmap, pbind at 1, valid_key_sequence, take_while. destruct (span is_key_char (w ++ s)) as [x r1].
        unfold pret, pbind, opt, line_ending. destruct (starts_with [LF] r1); [easy|]. now destruct (starts_with [CR; LF] r1).
      + now destruct (proj1 M e).
      + now destruct (proj2 M).
  Qed.
End NoFail.

(** ** Two error types *)

Section Agree.
  Context {U : Unicode} {E1 E2 : Type} {P1 : PErr E1} {P2 : PErr E2}.
  Variable R : E1 -> E2 -> Prop.
  Hypothesis R_kind : forall i k, R (from_kind i k) (from_kind i k).
  Hypothesis R_append : forall i k e f, R e f -> R (append_err i k e) (append_err i k f).
  Hypothesis R_context : forall i c e f, R e f -> R (add_context i c e) (add_context i c f).

  (** The same answer up to errors related by [R]. *)
  Definition alike {A} (a : ires E1 A) (b : ires E2 A) : Prop :=
    match a, b with
    | IOk r x, IOk s y => r = s /\ x = y
    | IErr e, IErr f | IFail e, IFail f => R e f
    | IFuel, IFuel => True
    | _, _ => False
    end.
  Definition agree {A} (p : parser E1 A) (q : parser E2 A) : Prop := forall i, alike (p i) (q i).

  Ltac step p q i H := generalize (H i); destruct (p i), (q i); cbn; try easy.
  Lemma ag_bind : forall A B (p : parser E1 A) q (f : A -> parser E1 B) g, agree p q -> (forall a, agree (f a) (g a)) ->
    agree (pbind p f) (pbind q g).
  Proof. intros A B p q f g H F i. unfold pbind. step p q i H. intros [<- <-]. apply F. Qed.
  Lemma ag_ret : forall A (a : A), agree (pret a) (pret a).
  Proof. now intros A a i. Qed.
  Lemma ag_map : forall A B (f : A -> B) p q, agree p q -> agree (pmap f p) (pmap f q).
  Proof. intros. apply ag_bind; [easy|]. intros. apply ag_ret. Qed.
  Lemma ag_alt2 : forall A (p p' : parser E1 A) q q', agree p q -> agree p' q' -> agree (alt2 p p') (alt2 q q').
  Proof. intros A p p' q q' H H' i. unfold alt2. step p q i H. intros _. step p' q' i H'. auto. Qed.
  Lemma ag_alt3 : forall A (p p' p'' : parser E1 A) q q' q'', agree p q -> agree p' q' -> agree p'' q'' -> agree (alt3 p p' p'') (alt3 q q' q'').
  Proof. intros A p p' p'' q q' q'' H H' H'' i. unfold alt3. step p q i H. intros _. step p' q' i H'. intros _. step p'' q'' i H''. auto. Qed.
  Lemma ag_opt : forall A (p : parser E1 A) q, agree p q -> agree (opt p) (opt q).
  Proof. intros A p q H i. unfold opt. step p q i H. now intros [<- <-]. Qed.
  Lemma ag_cut : forall A (p : parser E1 A) q, agree p q -> agree (cut p) (cut q).
  Proof. intros A p q H i. unfold cut. step p q i H. Qed.
  Lemma ag_context : forall A c (p : parser E1 A) q, agree p q -> agree (context c p) (context c q).
  Proof. intros A c p q H i. unfold context. step p q i H; auto. Qed.
  Lemma ag_all_consuming : forall A (p : parser E1 A) q, agree p q -> agree (all_consuming p) (all_consuming q).
  Proof. intros A p q H i. unfold all_consuming. step p q i H; intros [<- <-]; now destruct rest; cbn. Qed.
  Lemma ag_many0 : forall A (p : parser E1 A) q, agree p q -> forall f, agree (many0 f p) (many0 f q).
  Proof.
    intros A p q H. induction f as [|f IH]; intros i; cbn [many0]; [easy|]. step p q i H. intros [<- <-].
    destruct (_ =? _); [cbn; auto|]. generalize (IH rest). destruct (many0 f p rest), (many0 f q rest); cbn; try easy. now intros [<- <-].
  Qed.
  Lemma ag_many0' : forall A (p : parser E1 A) q, agree p q ->
    agree (fun i => many0 (S (length i)) p i) (fun i => many0 (S (length i)) q i).
  Proof. intros A p q H i. now apply ag_many0. Qed.
  Lemma ag_many_till : forall A B (p : parser E1 A) q (g : parser E1 B) h, agree p q -> agree g h -> forall f,
    agree (many_till f p g) (many_till f q h).
  Proof.
    intros A B p q g h H G. induction f as [|f IH]; intros i; cbn [many_till]; [easy|]. step g h i G; [now intros [<- <-]|].
    intros _. step p q i H; auto. intros [<- <-]. destruct (_ =? _); [cbn; auto|]. generalize (IH rest).
    destruct (many_till f p g rest) as [? []| | |], (many_till f q h rest) as [? []| | |]; cbn; try easy. intros [<- Q]. now injection Q as <- <-.
  Qed.
  Lemma ag_tag : forall t, agree (tag t) (tag t).
  Proof. intros t i. unfold tag. destruct (starts_with _ _); cbn; auto. Qed.
  Lemma ag_tag_no_case : forall t, agree (tag_no_case t) (tag_no_case t).
  Proof. intros t i. unfold tag_no_case. destruct (starts_with _ _); cbn; auto. Qed.
  Lemma ag_line_ending : agree line_ending line_ending.
  Proof. intros i. unfold line_ending. destruct (starts_with _ _); [cbn; auto|]. destruct (starts_with [CR; LF] i); cbn; auto. Qed.
  Lemma ag_take_while : forall f, agree (take_while f) (take_while f).
  Proof. intros f i. unfold take_while. destruct (span f i). now cbn. Qed.
  Lemma ag_take_while1 : forall k f, agree (take_while1 k f) (take_while1 k f).
  Proof. intros k f i. unfold take_while1. destruct (span f i) as [[|] ?]; cbn; auto. Qed.
  Lemma ag_take_until : forall t, agree (take_until t) (take_until t).
  Proof. intros t i. unfold take_until. destruct (find_sub t i) as [[? ?]|]; cbn; auto. Qed.
  Lemma ag_eof : agree eof eof.
  Proof. intros [|c i]; cbn; auto. Qed.
  Ltac ag := repeat first [assumption|apply ag_tag|apply ag_tag_no_case|apply ag_line_ending|apply ag_take_while|apply ag_take_while1
    |apply ag_take_until|apply ag_eof|apply ag_cut|apply ag_context|apply ag_alt2|apply ag_alt3|apply ag_opt|apply ag_many0'
    |apply ag_map|(apply ag_bind; [|intros ?])|apply ag_ret].
  Lemma ag_param_value : agree param_value param_value.
  Proof. unfold param_value. ag. Qed.
  Lemma ag_parameters : agree parameters parameters.
  Proof. pose proof ag_param_value. unfold parameters. apply ag_many0'. unfold parameter_p, pair_parameter, base_parameter. ag. Qed.
  Lemma ag_property_key : agree property_key property_key.
  Proof. intros i. unfold property_key. destruct (_ || _); [cbn; auto|]. apply ag_take_while. Qed.
  Lemma ag_property : agree property_p property_p.
  Proof. pose proof ag_property_key. pose proof ag_parameters. unfold property_p. ag. Qed.
  Lemma ag_line : forall A t (p : parser E1 A) q, agree p q -> agree (line t p) (line t q).
  Proof. intros A t p q H. unfold line, line_separated. ag. Qed.
  Lemma ag_component : forall f, agree (component f) (component f).
  Proof.
    pose proof ag_property. induction f as [|f IH]; [easy|]. cbn [component]. apply ag_bind; [apply ag_line, ag_take_while|]. intros n.
    apply ag_bind; [|intros [l x]; ag]. intros i. apply ag_many_till.
    - apply ag_cut, ag_context, ag_alt2; unfold line_separated; ag.
    - apply ag_line. ag.
  Qed.
  Lemma ag_components : agree components_p components_p.
  Proof. intros i. unfold components_p. apply ag_many0, ag_all_consuming. intros j. apply ag_component. Qed.
End Agree.
