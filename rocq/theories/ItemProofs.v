(** Reading single parameters and properties. *)
From Coq Require Import ZifyBool ZifyNat ZifyN.
From Verif Require Import Str StrFacts Spec ValueTypes Property Component Calendar Nom Parser SpecDoc SpecItems
  ParserProofs AcceptProofs ErrorProofs DocProofs.

Section Items.
  Context {U : Unicode} {E : Type} {PE : PErr E}.

  Lemma param_end_spec : forall s, param_end s -> s = [] \/ closes s.
  Proof. intros s [->|[[r ->]|[r ->]]]; [now left| |]; right; eexists _, r; split; try reflexivity; auto. Qed.
  Lemma name_ends_stops : forall s, name_ends s <-> stops is_key_char s.
  Proof.
    intros [|c s]; unfold name_ends; cbn.
    - split; easy.
    - split.
      + intros H. destruct (is_key_char c) eqn:Q; [|easy]. apply is_key_char_spec in Q. now destruct (H c s eq_refl).
      + intros H d r [= -> ->] K. apply is_key_char_spec in K. congruence.
  Qed.
  Lemma blank_all : forall w, blank w -> forallb (fun c => (c =? SP)%N || (c =? TAB)%N) w = true.
  Proof. unfold blank. intros w H. apply forallb_forall. intros c I. rewrite Forall_forall in H. destruct (H c I) as [->| ->]; easy. Qed.
  Lemma space0_blank : forall w s, blank w -> (forall c r, s = c :: r -> c <> SP /\ c <> TAB) -> space0 (E := E) (w ++ s) = IOk s w.
  Proof.
    intros w s B H. unfold space0, take_while. rewrite span_app; [easy|now apply blank_all|].
    destruct s as [|c r]; cbn; [easy|]. destruct (H c r eq_refl). lia.
  Qed.
  Lemma head_not_blank : forall k s, name_ok k -> (k = [] -> forall c r, s = c :: r -> c <> SP /\ c <> TAB) ->
    forall c r, k ++ s = c :: r -> c <> SP /\ c <> TAB.
  Proof.
    intros k s K H c r Q. destruct (name_head k s c r K Q) as [[-> Q']|N]; [now apply (H eq_refl c r)|].
    split; intros ->; apply N; cbn; tauto.
  Qed.

  (** The value parser, with the quoted form out of reach. *)
  Lemma quoted_fails : forall s, ~ quoted_start s -> exists e,
    delimited (tag [DQ]) (take_while1 KIsNot (fun c => negb (c =? DQ)%N)) (tag [DQ]) s = IErr (E := E) e.
  Proof.
    intros s H. unfold delimited, pbind, tag at 1. destruct (starts_with [DQ] s) eqn:S; [|eauto].
    apply starts_with_spec in S as [r ->]. rewrite skipn_app_exact. unfold take_while1.
    destruct (span _ r) as [a b] eqn:Q. apply span_spec in Q as (-> & A & B).
    destruct a as [|c a]; [eauto|]. unfold tag. destruct (starts_with [DQ] b) eqn:S; [|eauto].
    exfalso. apply H. apply starts_with_spec in S as [t ->]. exists (c :: a), t. split; [easy|]. split; [|easy].
    intros I. eapply not_in; [exact A| |exact I]. now cbn.
  Qed.
  Lemma value_read_ok : forall o t rest, value_read o t rest ->
    pmap remove_empty (opt (param_value (E := E))) (t ++ rest) = IOk rest o.
  Proof.
    intros o t rest H. unfold pmap, pbind, opt.
    destruct H as [v rest N D|v rest N S C P Q|rest P].
    - cbn [app]. rewrite <- app_assoc. cbn [app]. rewrite param_value_quoted by easy. now destruct v.
    - unfold param_value, alt3. destruct v as [|c v]; [easy|]. cbn [app eof].
      destruct (quoted_fails _ Q) as [e F]. cbn [app] in F. rewrite F. unfold take_while1. change (c :: v ++ rest) with ((c :: v) ++ rest). rewrite span_app; [easy| |].
      + apply forallb_forall. intros x I. destruct (x =? SEMI)%N eqn:E1; [apply N.eqb_eq in E1 as ->; easy|].
        destruct (x =? COLON)%N eqn:E2; [apply N.eqb_eq in E2 as ->; easy|]. easy.
      + apply param_end_spec in P as [->|(d & r & -> & [->| ->])]; easy.
    - apply param_end_spec in P as [->|P]; [reflexivity|]. destruct (param_value_empty (E := E) rest P) as [e P']. cbn [app].
      rewrite P'. reflexivity.
  Qed.
  Lemma value_read_ex : forall s, exists o t rest, s = t ++ rest /\ value_read o t rest.
  Proof.
    intros s. destruct (span (fun c => negb (c =? DQ)%N) (skipn 1 s)) as [a b] eqn:Q.
    apply span_spec in Q as (Q & A & B).
    assert (D : quoted_start s \/ ~ quoted_start s).
    { destruct s as [|c s]; [right; intros (v & r & _ & _ & ?); easy|]. cbn [skipn] in Q.
      destruct (N.eq_dec c DQ) as [->|N]; [|right; intros (v & r & _ & _ & X); now injection X].
      assert (DA : ~ In DQ a) by (eapply not_in; [exact A|now cbn]).
      destruct a as [|x a].
      - right. intros (v & r & V & DV & X). injection X as X. destruct v as [|y v]; [easy|]. cbn [app] in Q, X. subst s.
        rewrite X in B. cbn in B. destruct (y =? DQ)%N eqn:Y; [|easy]. apply N.eqb_eq in Y as ->. apply DV. now left.
      - destruct b as [|y b].
        + right. intros (v & r & V & DV & X). injection X as X. rewrite app_nil_r in Q. apply DA. rewrite <- Q, X.
          apply in_or_app. right. now left.
        + left. cbn in B. destruct (y =? DQ)%N eqn:Y; [|easy]. apply N.eqb_eq in Y as ->.
          exists (x :: a), b. split; [easy|]. split; [easy|]. now rewrite Q. }
    destruct D as [(v & r & V & DV & ->)|D].
    - exists (Some v), (DQ :: v ++ [DQ]), r. split; [cbn [app]; now rewrite <- app_assoc|]. now constructor.
    - destruct (span (fun c => negb ((c =? SEMI)%N || (c =? COLON)%N)) s) as [x y] eqn:Q'. apply span_spec in Q' as (-> & X & Y).
      assert (P : param_end y).
      { destruct y as [|c y]; [now left|]. cbn in Y. destruct (c =? SEMI)%N eqn:C1; [apply N.eqb_eq in C1 as ->; right; left; now exists y|].
        destruct (c =? COLON)%N eqn:C2; [apply N.eqb_eq in C2 as ->; right; right; now exists y|easy]. }
      destruct x as [|c x]; [exists None, [], y; split; [easy|now constructor]|].
      exists (Some (c :: x)), (c :: x), y. split; [easy|]. constructor; [easy| | |easy|easy].
      + eapply not_in; [exact X|now cbn].
      + eapply not_in; [exact X|now cbn].
  Qed.

  (** The name of a parameter. *)
  Lemma param_name_ok : forall w k s, blank w -> name_ok k -> stops is_key_char s ->
    (k = [] -> forall c r, s = c :: r -> c <> SP /\ c <> TAB) ->
    preceded (E := E) (pair (tag [SEMI]) space0) valid_key_sequence (SEMI :: w ++ k ++ s) = IOk s k.
  Proof.
    intros w k s B K S H. unfold preceded, pair, pbind, pret. change (SEMI :: w ++ k ++ s) with ([SEMI] ++ w ++ k ++ s).
    rewrite tag_ok, space0_blank; [now apply valid_key_ok|easy|]. now apply head_not_blank.
  Qed.
  Lemma pair_parameter_at : forall w k s, blank w -> name_ok k -> stops is_key_char s ->
    (k = [] -> forall c r, s = c :: r -> c <> SP /\ c <> TAB) ->
    pair_parameter (E := E) (SEMI :: w ++ k ++ s)
    = pmap (fun '(k, v) => mk_pparam k v)
        (fun i => pbind (tag [EQUALS]) (fun _ => pbind (pmap remove_empty (opt param_value)) (fun c => pret (k, c))) i) s.
  Proof.
    intros w k s B K S H. pose proof (param_name_ok w k s B K S H) as P. revert P. unfold pair_parameter.
    unfold preceded, pair, separated_pair, pmap, pbind, pret.
    destruct (tag [SEMI] (SEMI :: w ++ k ++ s)) as [r o|e|e|]; try easy.
    destruct (space0 r) as [r1 o1|e|e|]; try easy.
    destruct (valid_key_sequence r1) as [r2 o2|e|e|]; try easy. intros X. injection X as -> ->. easy.
  Qed.
  Lemma param_read_ok : forall q s rest, param_read q s rest -> parameter_p (E := E) (s ++ rest) = IOk rest q.
  Proof.
    intros q s rest [k o w t r B K V|k w r B K N1 N2 N3]; unfold parameter_p, alt2.
    - cbn [app]. rewrite <- !app_assoc. cbn [app].
      assert (S : stops is_key_char (EQUALS :: t ++ r)) by (apply stops_special; cbn; tauto).
      rewrite pair_parameter_at; [|easy|easy|exact S|].
      2:{ intros _ c x [= <- _]. easy. }
      unfold pmap at 1, pbind at 1 2. change (EQUALS :: t ++ r) with ([EQUALS] ++ t ++ r). rewrite tag_ok.
      unfold pbind at 1. rewrite (value_read_ok o t r V). reflexivity.
    - cbn [app]. rewrite <- app_assoc.
      assert (S : stops is_key_char r) by now apply name_ends_stops.
      assert (H : k = [] -> forall c x, r = c :: x -> c <> SP /\ c <> TAB).
      { intros -> c x ->. destruct (N3 eq_refl) as [A1 A2]. split; intros ->; [apply A1|apply A2]; now exists x. }
      assert (T : tag (E := E) [EQUALS] r = IErr (from_kind r KTag)).
      { apply tag_err. destruct (starts_with [EQUALS] r) eqn:Q; [|easy]. apply starts_with_spec in Q. easy. }
      rewrite pair_parameter_at by easy. unfold pmap at 1, pbind at 1 2. rewrite T.
      unfold base_parameter, pmap at 1, pair at 1, pbind at 1 2. rewrite param_name_ok by easy.
      unfold pmap, pbind, opt, preceded, pbind. rewrite T. reflexivity.
  Qed.
  Lemma param_read_ex : forall i, has_prefix [SEMI] i -> exists q s rest, i = s ++ rest /\ param_read q s rest.
  Proof.
    intros i [j ->]. destruct (span (fun c => (c =? SP)%N || (c =? TAB)%N) j) as [w j1] eqn:Q1. apply span_spec in Q1 as (-> & W & S1).
    destruct (span is_key_char j1) as [k r] eqn:Q2. apply span_spec in Q2 as (-> & K & S2).
    assert (B : blank w).
    { apply Forall_forall. intros c I. rewrite forallb_forall in W. specialize (W c I). lia. }
    apply name_ok_spec in K. destruct (starts_with [EQUALS] r) eqn:Q.
    - apply starts_with_spec in Q as [x ->]. destruct (value_read_ex x) as (o & t & rest & -> & V).
      exists (mk_pparam k o), (SEMI :: w ++ k ++ EQUALS :: t), rest. split; [|now constructor]. cbn [app]. now rewrite <- !app_assoc.
    - exists (mk_pparam k None), (SEMI :: w ++ k), r. split; [cbn [app]; now rewrite <- app_assoc|]. constructor; try easy.
      + now apply name_ends_stops.
      + intros [x ->]. now rewrite starts_with_app in Q.
      + intros ->. cbn [app] in S1. split; intros [x ->]; now cbn in S1.
  Qed.

  Lemma param_no : forall i, ~ has_prefix [SEMI] i -> exists e, parameter_p (E := E) i = IErr e.
  Proof.
    intros i H. assert (T : tag (E := E) [SEMI] i = IErr (from_kind i KTag)).
    { apply tag_err. destruct (starts_with [SEMI] i) eqn:Q; [|easy]. apply starts_with_spec in Q. easy. }
    unfold parameter_p, alt2, pair_parameter, base_parameter, pmap, preceded, pair, pbind. rewrite T. eauto.
  Qed.
  Lemma param_read_long : forall q s rest, param_read q s rest -> s <> [].
  Proof. now intros q s rest []. Qed.
  Lemma params_read_ok : forall qs s rest, params_read qs s rest -> parameters (E := E) (s ++ rest) = IOk rest qs.
  Proof.
    intros qs s rest H. unfold parameters.
    assert (G : forall fuel, length s < fuel -> many0 fuel (parameter_p (E := E)) (s ++ rest) = IOk rest qs).
    { induction H as [rest N|q qs s t rest P _ IH]; intros [|f] L; try (cbn in L; lia).
      - cbn [many0 app]. destruct (param_no rest N) as [e ->]. easy.
      - cbn [many0]. rewrite <- app_assoc, (param_read_ok _ _ _ P).
        rewrite longer by (eapply param_read_long; exact P). rewrite IH; [easy|]. rewrite app_length in L.
        apply param_read_long in P. destruct s; [easy|]. cbn [length] in L. lia. }
    apply G. rewrite app_length. lia.
  Qed.
  Lemma params_read_ex : forall i, exists qs s rest, i = s ++ rest /\ params_read qs s rest.
  Proof.
    intros i. remember (length i) as n eqn:L. revert i L. induction n as [n IH] using (well_founded_induction lt_wf). intros i ->.
    destruct (starts_with [SEMI] i) eqn:Q.
    - apply starts_with_spec in Q. destruct (param_read_ex i Q) as (q & s & r & -> & P).
      assert (L : length r < length (s ++ r)).
      { apply param_read_long in P. destruct s; [easy|]. rewrite app_length. cbn [length]. lia. }
      destruct (IH _ L r eq_refl) as (qs & t & rest & -> & Ps).
      exists (q :: qs), (s ++ t), rest. split; [now rewrite <- app_assoc|]. now constructor.
    - exists [], [], i. split; [easy|]. constructor. intros [r ->]. now rewrite starts_with_app in Q.
  Qed.

  (** ** Properties *)

  Lemma value_cut_ok : forall v rest, value_cut v rest -> value_p (E := E) (v ++ rest) = IOk rest v.
  Proof.
    intros v rest [[[r ->] V]|[([r ->] & V & C)|[-> V]]]; unfold value_p, context, alt3, take_until.
    - cbn [app]. now rewrite find_crlf.
    - rewrite find_crlf_none by easy. cbn [app]. now rewrite find_lf.
    - rewrite app_nil_r. rewrite find_crlf_none.
      + destruct (find_sub [LF] v) as [[a b]|] eqn:Q.
        * exfalso. apply find_sub_some in Q as (-> & r & ->). apply V. apply in_or_app. right. now left.
        * unfold take_while. rewrite <- (app_nil_r v) at 1. rewrite span_app; [easy| |easy]. now apply forallb_forall.
      + intros (a & b & ->). apply V. apply in_or_app. right. right. now left.
  Qed.
  Lemma value_cut_ex : forall i, exists v rest, i = v ++ rest /\ value_cut v rest.
  Proof.
    intros i. pose proof (value_cut_ok) as _.
    destruct (find_sub [CR; LF] i) as [[a b]|] eqn:Q.
    - pose proof (find_sub_first [CR; LF] i a b ltac:(easy) Q) as F. apply find_sub_some in Q as (-> & r & ->).
      exists a, ([CR; LF] ++ r). split; [easy|]. left. split; [now exists r|]. intros (x & y & ->).
      specialize (F x (y ++ [CR; LF])). rewrite <- !app_assoc in F. specialize (F eq_refl). now destruct y.
    - assert (C : ~ has_crlf i). { intros (x & y & ->). now apply (find_sub_none _ _ Q x y). }
      destruct (find_sub [LF] i) as [[a b]|] eqn:Q'.
      + pose proof (find_sub_first [LF] i a b ltac:(easy) Q') as F. apply find_sub_some in Q' as (-> & r & ->).
        exists a, ([LF] ++ r). split; [easy|]. right. left. split; [now exists r|]. split; [|easy].
        intros I. apply in_split in I as (x & y & ->). specialize (F x (y ++ [LF])). rewrite <- !app_assoc in F.
        specialize (F eq_refl). now destruct y.
      + exists i, []. split; [now rewrite app_nil_r|]. right. right. split; [easy|].
        intros I. apply in_split in I as (x & y & ->). now apply (find_sub_none _ _ Q' x y).
  Qed.
  Lemma multispace0_white : forall w s, white w -> (forall c r, s = c :: r -> ~ In c [SP; TAB; CR; LF]) ->
    multispace0 (E := E) (w ++ s) = IOk s w.
  Proof.
    intros w s W H. unfold multispace0, take_while. rewrite span_app; [easy| |].
    - apply forallb_forall. intros c I. unfold white in W. rewrite Forall_forall in W. specialize (W c I).
      cbn in W. intuition (subst; easy).
    - destruct s as [|c r]; cbn; [easy|]. specialize (H c r eq_refl). cbn in H. lia.
  Qed.
  Lemma key_read : forall k s, name_ok k -> stops is_key_char s -> ~ has_prefix (lit "END") (k ++ s) -> ~ has_prefix (lit "BEGIN") (k ++ s) ->
    property_key (E := E) (k ++ s) = IOk s k.
  Proof.
    intros k s K S H1 H2. unfold property_key.
    destruct (starts_with (lit "END") (k ++ s)) eqn:E1; [apply starts_with_spec in E1; easy|].
    destruct (starts_with (lit "BEGIN") (k ++ s)) eqn:E2; [apply starts_with_spec in E2; easy|]. now apply valid_key_ok.
  Qed.
  Lemma params_head : forall qs t s, params_read qs t (COLON :: s) -> exists c r, t ++ COLON :: s = c :: r /\ In c [SEMI; COLON].
  Proof.
    intros qs t s H. inversion H as [rest N|q qs' s' t' rest P Ps]; subst.
    - exists COLON, s. cbn. tauto.
    - destruct P; cbn [app]; eexists SEMI, _; split; try reflexivity; now left.
  Qed.
  Definition line_p : parser E (str * list pparam * str) :=
    separated_pair (pair (cut (context "property cannot be END or BEGIN" (preceded multispace0 property_key))) parameters)
      (context "property separator" (tag [COLON])) value_p.
  Lemma reserved_not : forall w i, white w -> ~ reserved (w ++ i) -> ~ has_prefix (lit "END") i /\ ~ has_prefix (lit "BEGIN") i.
  Proof. intros w i W N. split; intros [r ->]; apply N; exists w, r; auto. Qed.
  Lemma line_read_ok : forall i, ~ reserved i -> forall p, line_read i p -> exists r, property_p (E := E) i = IOk r p.
  Proof.
    intros i N p (w & k & qs & t & v & rest & -> & W & K & P & V & ->).
    destruct (reserved_not w _ W N) as [N1 N2]. destruct (params_head _ _ _ P) as (c & r & T & C).
    assert (S : stops is_key_char (t ++ COLON :: v ++ rest)).
    { rewrite T. apply stops_special. cbn in C |- *. intuition. }
    assert (L : line_p (w ++ k ++ t ++ COLON :: v ++ rest) = IOk rest (k, qs, v)).
    { unfold line_p, separated_pair at 1, pbind at 1, pair at 1, pbind at 1, cut at 1, context at 1, preceded at 1, pbind at 1.
      rewrite multispace0_white; [|easy|].
      - rewrite key_read by easy. unfold pbind at 1. rewrite (params_read_ok _ _ _ P). unfold pret at 1.
        unfold pbind at 1, context at 1. change (COLON :: v ++ rest) with ([COLON] ++ v ++ rest). rewrite tag_ok.
        unfold pbind at 1. rewrite (value_cut_ok v rest V). reflexivity.
      - intros d x Q I. destruct (name_head k _ d x K Q) as [[-> Q']|Q'].
        + rewrite T in Q'. injection Q' as -> _. cbn in C, I. intuition (subst; easy).
        + apply Q'. cbn in I |- *. tauto. }
    unfold property_p, context at 1, cut at 1, pmap at 1, pair at 1, pbind at 1 2. unfold alt2. fold value_p. fold line_p. rewrite L.
    unfold pbind at 1. unfold opt, line_ending. destruct (starts_with [LF] rest); [now eexists|].
    destruct (starts_with [CR; LF] rest); now eexists.
  Qed.
  (** Without a line, the name alone. *)
  Lemma line_or_not : forall i, ~ reserved i -> (exists p, line_read i p) \/ exists e, line_p i = IErr e.
  Proof.
    intros i N. destruct (span (fun c => (c =? SP)%N || (c =? TAB)%N || (c =? CR)%N || (c =? LF)%N) i) as [w j] eqn:Q1.
    apply span_spec in Q1 as (-> & W & S1).
    destruct (span is_key_char j) as [k j2] eqn:Q2. apply span_spec in Q2 as (-> & K & S2). apply name_ok_spec in K.
    assert (Wh : white w).
    { apply Forall_forall. intros c I. rewrite forallb_forall in W. specialize (W c I). cbn. lia. }
    destruct (params_read_ex j2) as (qs & t & j3 & -> & P).
    destruct (reserved_not w _ Wh N) as [N1 N2].
    destruct (starts_with [COLON] j3) eqn:Q.
    - left. apply starts_with_spec in Q as [x ->]. destruct (value_cut_ex x) as (v & rest & -> & V).
      eexists. exists w, k, qs, t, v, rest. split; [reflexivity|]. split; [easy|]. split; [easy|]. split; [exact P|]. split; [easy|reflexivity].
    - right. unfold line_p, separated_pair at 1, pbind at 1, pair at 1, pbind at 1, cut at 1, context at 1, preceded at 1, pbind at 1.
      rewrite multispace0_white; [|easy|].
      + rewrite key_read by easy. unfold pbind at 1. rewrite (params_read_ok _ _ _ P). unfold pret at 1.
        unfold pbind at 1, context at 1. rewrite tag_err by easy. eauto.
      + intros c r Qc I. rewrite Qc in S1. cbn in S1, I. intuition (subst; easy).
  Qed.
  Lemma bare_read : forall i, ~ reserved i -> (forall p, ~ line_read i p) -> forall k, longest_name i k ->
    exists r, property_p (E := E) i = IOk r (mk_pprop k [] []).
  Proof.
    intros i N L k (r & -> & K & S). destruct (line_or_not _ N) as [[p P]|[e P]]; [now destruct (L p)|].
    unfold property_p, context at 1, cut at 1, pmap at 1, pair at 1, pbind at 1 2. unfold alt2. fold value_p. fold line_p. rewrite P.
    unfold context at 1, pmap at 1, pbind at 1. rewrite valid_key_ok by (easy || now apply name_ends_stops).
    assert (D : decode_value k [] [] = []) by (unfold decode_value; now destruct (determin_value_type k []) as [[]|]).
    unfold pret at 1. unfold pbind at 1. unfold opt, line_ending. destruct (starts_with [LF] r); [|destruct (starts_with [CR; LF] r)]; eexists; cbv [pret pbind]; now rewrite D.
  Qed.
End Items.

Section Read.
  Context {U : Unicode}.
  Lemma read_parameter_exact : forall i q, read_parameter i = Ok q <-> exists s rest, i = s ++ rest /\ param_read q s rest.
  Proof.
    intros i q. unfold read_parameter. split.
    - intros H. destruct (starts_with [SEMI] i) eqn:Q.
      + apply starts_with_spec in Q. destruct (param_read_ex i Q) as (q' & s & r & -> & P).
        rewrite (param_read_ok _ _ _ P) in H. injection H as <-. eauto.
      + destruct (param_no (E := verror) i) as [e X]; [intros [r ->]; now rewrite starts_with_app in Q|]. now rewrite X in H.
    - intros (s & r & -> & P). now rewrite (param_read_ok _ _ _ P).
  Qed.
  Lemma read_property_line : forall i p, ~ reserved i -> line_read i p -> read_property i = Ok p.
  Proof. intros i p N L. unfold read_property. destruct (line_read_ok (E := verror) i N p L) as [r ->]. reflexivity. Qed.
  Lemma read_property_bare : forall i k, ~ reserved i -> (forall p, ~ line_read i p) -> longest_name i k ->
    read_property i = Ok (mk_pprop k [] []).
  Proof. intros i k N L K. unfold read_property. destruct (bare_read (E := verror) i N L k K) as [r ->]. reflexivity. Qed.
  Lemma longest_name_ex : forall i, exists k, longest_name i k.
  Proof.
    intros i. destruct (span is_key_char i) as [k r] eqn:Q. apply span_spec in Q as (-> & K & S).
    exists k, r. split; [easy|]. split; [now apply name_ok_spec|now apply name_ends_stops].
  Qed.
  Lemma read_property_exact : forall i p, read_property i = Ok p <->
    ~ reserved i /\ (line_read i p \/ (forall q, ~ line_read i q) /\ exists k, longest_name i k /\ p = mk_pprop k [] []).
  Proof.
    intros i p. split.
    - intros H. assert (N : ~ reserved i).
      { intros R. apply property_read_error in R as [e R]. congruence. }
      split; [easy|]. destruct (line_or_not (E := verror) i N) as [[q Q]|[e Q]].
      + left. pose proof (read_property_line i q N Q). congruence.
      + right. assert (A : forall q, ~ line_read i q).
        { intros q L. destruct (longest_name_ex i) as [k K]. revert Q.
          destruct L as (w & k' & qs & t & v & rest & -> & W & K' & P & V & ->). clear k K.
          destruct (reserved_not w _ W N) as [N1 N2]. destruct (params_head _ _ _ P) as (c & r & T & C).
          unfold line_p, separated_pair at 1, pbind at 1, pair at 1, pbind at 1, cut at 1, context at 1, preceded at 1, pbind at 1.
          rewrite multispace0_white; [|easy|].
          - rewrite key_read; [|easy| |easy|easy].
            + unfold pbind at 1. rewrite (params_read_ok _ _ _ P). unfold pret at 1.
              unfold pbind at 1, context at 1. change (COLON :: v ++ rest) with ([COLON] ++ v ++ rest). rewrite tag_ok.
              unfold pbind at 1. rewrite (value_cut_ok v rest V). easy.
            + rewrite T. apply stops_special. cbn in C |- *. intuition.
          - intros d x Q I. destruct (name_head k' _ d x K' Q) as [[-> Q']|Q'].
            + rewrite T in Q'. injection Q' as -> _. cbn in C, I. intuition (subst; easy).
            + apply Q'. cbn in I |- *. tauto. }
        split; [easy|]. destruct (longest_name_ex i) as [k K]. exists k. split; [easy|].
        pose proof (read_property_bare i k N A K). congruence.
    - intros (N & [L|(A & k & K & ->)]); [now apply read_property_line|now apply read_property_bare].
  Qed.
End Read.
