(** The parser reads exactly the language of SpecGrammar.v. *)
From Verif Require Import Str StrFacts Spec ValueTypes Property Chrono DateTime Component Calendar Nom Parser SpecDoc SpecItems SpecGrammar
  ParserProofs TotalProofs ReadProofs AcceptProofs RejectProofs ItemProofs DocProofs.
From Verif Require ErrorProofs.
From Coq Require Import ZifyBool ZifyNat ZifyN.

Scheme comp_reads_m := Minimality for comp_reads Sort Prop
  with body_reads_m := Minimality for body_reads Sort Prop
  with comp_stuck_m := Minimality for comp_stuck Sort Prop
  with body_stuck_m := Minimality for body_stuck Sort Prop.
Scheme comp_fails_m := Minimality for comp_fails Sort Prop with body_fails_m := Minimality for body_fails Sort Prop.
Combined Scheme fails_mutind from comp_fails_m, body_fails_m.
Combined Scheme reads_mutind from comp_reads_m, body_reads_m, comp_stuck_m, body_stuck_m.

Lemma keyword_spec : forall w i, keyword w i <-> starts_with w (map lower_ascii i) = true.
Proof.
  intros w i. split.
  - intros (k & r & <- & ->). rewrite map_app. apply starts_with_app.
  - intros H. apply starts_with_spec in H as [r H]. exists (firstn (length w) i), (skipn (length w) i).
    split; [|symmetry; apply firstn_skipn]. rewrite <- firstn_map, H. apply firstn_app_exact.
Qed.
Lemma keyword_not : forall w i, ~ keyword w i <-> starts_with w (map lower_ascii i) = false.
Proof. intros w i. rewrite keyword_spec. destruct (starts_with w _); split; easy. Qed.

Lemma after_breaks_ex : forall a, exists r, after_breaks a r.
Proof.
  intros a. remember (length a) as n eqn:L. revert a L. induction n as [n IH] using (well_founded_induction lt_wf). intros a ->.
  assert (S : forall b r, break b -> a = b ++ r -> exists r', after_breaks a r').
  { intros b r B ->. destruct (IH (length r)) with (a := r) as (r' & b' & B' & -> & N); [|easy|].
    - rewrite app_length. destruct B as [->| ->]; cbn; lia.
    - exists r', (b ++ b'). split; [now constructor|]. split; [now rewrite app_assoc|easy]. }
  destruct (starts_with [LF] a) eqn:Q1.
  - apply starts_with_spec in Q1 as [r ->]. apply (S [LF] r); [now right|easy].
  - destruct (starts_with [CR; LF] a) eqn:Q2.
    + apply starts_with_spec in Q2 as [r ->]. apply (S [CR; LF] r); [now left|easy].
    + exists a, []. split; [constructor|]. split; [easy|]. now apply no_break_spec.
Qed.
Lemma after_break_ex : forall a, exists r, after_break a r.
Proof.
  intros a. destruct (starts_with [LF] a) eqn:Q1.
  - apply starts_with_spec in Q1 as [r ->]. exists r. left. exists [LF]. split; [now right|easy].
  - destruct (starts_with [CR; LF] a) eqn:Q2.
    + apply starts_with_spec in Q2 as [r ->]. exists r. left. exists [CR; LF]. split; [now left|easy].
    + exists a. right. split; [now apply no_break_spec|easy].
Qed.
Lemma no_breaks_self : forall a r, no_break a -> after_breaks a r -> r = a.
Proof.
  intros a r N (b & B & -> & _). destruct B as [|x s X B]; [easy|]. exfalso. rewrite <- app_assoc in N. destruct N as [N1 N2].
  destruct X as [->| ->]; [now rewrite starts_with_app in N2|now rewrite starts_with_app in N1].
Qed.

Section Grammar.
  Context {U : Unicode} {E : Type} {PE : PErr E}.

  Lemma skips_after : forall a r, after_breaks a r -> skips (E := E) a r.
  Proof. intros a r (b & B & -> & N). apply skips_breaks; [easy|now apply no_break_spec]. Qed.
  Lemma opt_break : forall a r, after_break a r -> exists o, opt (line_ending (E := E)) a = IOk r o.
  Proof.
    intros a r [(b & B & ->)|[N ->]]; unfold opt.
    - rewrite line_ending_ok by easy. eauto.
    - rewrite line_ending_err by now apply no_break_spec. eauto.
  Qed.

  Lemma line_left_read : forall i p, line_read i p <-> exists r, line_left i p r.
  Proof.
    intros i p. split.
    - intros (w & k & qs & t & v & rest & H). exists rest, w, k, qs, t, v. exact H.
    - intros (rest & w & k & qs & t & v & H). exists w, k, qs, t, v, rest. exact H.
  Qed.
  Lemma line_left_ok : forall i p rest r, ~ reserved i -> line_left i p rest -> after_break rest r -> property_p (E := E) i = IOk r p.
  Proof.
    intros i p rest r0 N (w & k & qs & t & v & -> & W & K & P & V & ->) A.
    destruct (reserved_not w _ W N) as [N1 N2]. destruct (params_head _ _ _ P) as (c & r & T & C).
    assert (S : stops is_key_char (t ++ COLON :: v ++ rest)).
    { rewrite T. apply stops_special. cbn in C |- *. intuition. }
    assert (L : line_p (E := E) (w ++ k ++ t ++ COLON :: v ++ rest) = IOk rest (k, qs, v)).
    { unfold line_p, separated_pair at 1, pbind at 1, pair at 1, pbind at 1, cut at 1, context at 1, preceded at 1, pbind at 1.
      rewrite multispace0_white; [|easy|].
      - rewrite key_read by easy. unfold pbind at 1. rewrite (params_read_ok _ _ _ P). unfold pret at 1.
        unfold pbind at 1, context at 1. change (COLON :: v ++ rest) with ([COLON] ++ v ++ rest). rewrite tag_ok.
        unfold pbind at 1. rewrite (value_cut_ok v rest V). reflexivity.
      - intros d x Q I. destruct (name_head k _ d x K Q) as [[-> Q']|Q'].
        + rewrite T in Q'. injection Q' as -> _. cbn in C, I. intuition (subst; easy).
        + apply Q'. cbn in I |- *. tauto. }
    unfold property_p, context at 1, cut at 1, pmap at 1, pair at 1, pbind at 1 2. unfold alt2. fold (value_p (E := E)). fold (line_p (E := E)). rewrite L.
    unfold pbind at 1. destruct (opt_break _ _ A) as [o ->]. reflexivity.
  Qed.
  Lemma bare_left_ok : forall k rest r, ~ reserved (k ++ rest) -> (forall q x, ~ line_left (k ++ rest) q x) -> name_ok k -> name_ends rest ->
    after_break rest r -> property_p (E := E) (k ++ rest) = IOk r (mk_pprop k [] []).
  Proof.
    intros k rest r N L K S A. destruct (line_or_not (E := E) _ N) as [[p P]|[e P]].
    { apply line_left_read in P as [x P]. now destruct (L p x). }
    unfold property_p, context at 1, cut at 1, pmap at 1, pair at 1, pbind at 1 2. unfold alt2. fold (value_p (E := E)). fold (line_p (E := E)). rewrite P.
    unfold context at 1, pmap at 1, pbind at 1. rewrite valid_key_ok by (easy || now apply name_ends_stops).
    assert (D : decode_value k [] [] = []) by (unfold decode_value; now destruct (determin_value_type k []) as [[]|]).
    unfold pret at 1. unfold pbind at 1. destruct (opt_break _ _ A) as [o ->]. cbv [pret pbind]. now rewrite D.
  Qed.
  Lemma prop_reads_ok : forall i p r, prop_reads i p r -> property_p (E := E) i = IOk r p.
  Proof.
    intros i p r (N & rest & A & [L|(L & k & -> & K & S & ->)]); [now apply (line_left_ok i p rest)|now apply bare_left_ok].
  Qed.
  Lemma reserved_dec : forall i, reserved i \/ ~ reserved i.
  Proof.
    intros i. destruct (span (fun c => (c =? SP)%N || (c =? TAB)%N || (c =? CR)%N || (c =? LF)%N) i) as [w j] eqn:Q.
    apply span_spec in Q as (-> & W & S). assert (Wh : white w).
    { apply Forall_forall. intros c I. rewrite forallb_forall in W. specialize (W c I). cbn. lia. }
    destruct (starts_with (lit "END") j) eqn:Q1.
    { left. apply starts_with_spec in Q1 as [r ->]. exists w, r. auto. }
    destruct (starts_with (lit "BEGIN") j) eqn:Q2.
    { left. apply starts_with_spec in Q2 as [r ->]. exists w, r. auto. }
    right. intros (w' & r & W' & D).
    assert (X : forall x, (x = lit "END" \/ x = lit "BEGIN") -> w ++ j = w' ++ x ++ r -> starts_with x j = false -> False).
    { intros x D' H Hx.
      assert (Y : span (fun c => (c =? SP)%N || (c =? TAB)%N || (c =? CR)%N || (c =? LF)%N) (w ++ j) = (w', x ++ r)).
      { rewrite H. apply span_app; [|destruct D' as [->| ->]; reflexivity]. apply forallb_forall. intros c I.
        unfold white in W'. rewrite Forall_forall in W'. specialize (W' c I). cbn in W'. lia. }
      rewrite (span_app _ w j W S) in Y. injection Y as -> ->. now rewrite starts_with_app in Hx. }
    destruct D as [D|D]; [apply (X (lit "END"))|apply (X (lit "BEGIN"))]; auto.
  Qed.
  Lemma prop_reads_ex : forall i, ~ reserved i -> exists p r, prop_reads i p r.
  Proof.
    intros i N. destruct (line_or_not (E := E) i N) as [[p P]|[e P]].
    - apply line_left_read in P as [rest P]. destruct (after_break_ex rest) as [r A]. exists p, r. split; [easy|]. exists rest. auto.
    - destruct (longest_name_ex i) as (k & rest & -> & K & S). destruct (after_break_ex rest) as [r A].
      exists (mk_pprop k [] []), r. split; [easy|]. exists rest. split; [easy|]. right. split; [|now exists k].
      intros q x L. destruct (line_read_ok (E := E) _ N q) as [y Y]; [apply line_left_read; eauto|].
      pose proof (line_left_ok _ _ _ x N L) as Z. clear Z. revert P Y.
      destruct L as (w & k' & qs & t & v & H & W & K' & P' & V & ->). rewrite H in *.
      destruct (reserved_not w _ W N) as [N1 N2]. destruct (params_head _ _ _ P') as (c & z & T & C).
      unfold line_p, separated_pair at 1, pbind at 1, pair at 1, pbind at 1, cut at 1, context at 1, preceded at 1, pbind at 1.
      rewrite multispace0_white; [|easy|].
      + rewrite key_read; [|easy| |easy|easy].
        * unfold pbind at 1. rewrite (params_read_ok _ _ _ P'). unfold pret at 1.
          unfold pbind at 1, context at 1. change (COLON :: v ++ x) with ([COLON] ++ v ++ x). rewrite tag_ok.
          unfold pbind at 1. rewrite (value_cut_ok v x V). easy.
        * rewrite T. apply stops_special. cbn in C |- *. intuition.
      + intros d u Q I. destruct (name_head k' _ d u K' Q) as [[-> Q']|Q'].
        * rewrite T in Q'. injection Q' as -> _. cbn in C, I. intuition (subst; easy).
        * apply Q'. cbn in I |- *. tauto.
  Qed.

  Lemma prop_reads_iff : forall i p r, property_p (E := E) i = IOk r p <-> prop_reads i p r.
  Proof.
    intros i p r. split; [|apply prop_reads_ok]. intros H. destruct (reserved_dec i) as [R|R].
    - pose proof (ErrorProofs.property_error (E := E) i) as X. rewrite H in X. now destruct X.
    - destruct (prop_reads_ex i R) as (p' & r' & P). pose proof (prop_reads_ok _ _ _ P) as Q. rewrite H in Q. now injection Q as -> ->.
  Qed.
  Lemma separated_none : forall A (p : parser E A) i, no_break i ->
    match p i with
    | IOk r a => exists r', after_breaks r r' /\ line_separated p i = IOk r' a
    | IErr e => line_separated p i = IErr e
    | IFail e => line_separated p i = IFail e
    | IFuel => line_separated p i = IFuel
    end.
  Proof.
    intros A p i N. pose proof (skips_none (E := E) _ N) as S. destruct (p i) as [r a|e|e|] eqn:Q.
    - destruct (after_breaks_ex r) as [r' H]. exists r'. split; [easy|]. eapply line_separated_ok; eauto. now apply skips_after.
    - eapply line_separated_err; eauto.
    - eapply line_separated_fail; eauto.
    - destruct S as [l S]. unfold line_separated, delimited, pbind. now rewrite S, Q.
  Qed.
  Lemma after_suffix : forall a r, after_breaks a r -> suffix r a /\ no_break r.
  Proof. intros a r (b & B & -> & N). split; [now exists b|now apply no_break_spec]. Qed.
  Lemma item_suffix : forall i p r, item_reads i p r -> suffix r i /\ no_break r.
  Proof.
    intros i p r (j & (_ & rest & A & D) & B). apply after_suffix in B as [B N]. split; [|easy].
    eapply suffix_trans; [exact B|]. assert (A' : suffix j rest).
    { destruct A as [(b & _ & ->)|[_ ->]]; [now exists b|apply suffix_refl]. }
    eapply suffix_trans; [exact A'|]. destruct D as [(w & k & qs & t & v & -> & _)|(_ & k & -> & _)]; [|now exists k].
    exists (w ++ k ++ t ++ COLON :: v). rewrite <- !app_assoc. reflexivity.
  Qed.
  Lemma suffix_same : forall r i, suffix r i -> length r = length i -> r = i.
  Proof. intros r i [[|c p] ->] L; [easy|]. rewrite app_length in L. cbn in L. lia. Qed.
  Lemma begin_not_self : forall i p, begins i -> ~ item_reads i p i.
  Proof.
    intros i p (kb & x & K & ->) (j & (_ & rest & A & D) & B). apply after_suffix in B as [B _]. apply suffix_length in B.
    assert (A' : length j <= length rest).
    { destruct A as [(b & _ & ->)|[_ ->]]; [rewrite app_length|]; lia. }
    destruct D as [(w & k & qs & t & v & H & _)|(_ & k & H & _ & M & _)]; rewrite H in B; repeat (rewrite app_length in B || cbn [length] in B).
    - lia.
    - assert (k = []) as -> by (destruct k; cbn in B; [easy|lia]). cbn in H. destruct kb as [|b kb]; [easy|]. injection K as K _.
      apply (M b (kb ++ x)); [now rewrite <- H|]. assert (b = 98 \/ b = 66)%N as [->| ->]; [|right; reflexivity..].
      unfold lower_ascii, is_upper, in_range in K. destruct (_ && _)%bool eqn:Q in K; lia.
  Qed.

  Lemma begin_line : forall kb n i j, map lower_ascii kb = lit "begin:" -> name_ok n -> name_ends i -> after_breaks i j ->
    line (lit "BEGIN:") (valid_key_sequence (E := E)) (kb ++ n ++ i) = IOk j n.
  Proof.
    intros kb n i j K N M A. unfold line. eapply (line_separated_ok _ _ _ (kb ++ n ++ i) i).
    - apply skips_none, keyword_no_break. eauto.
    - unfold preceded, pbind. rewrite tag_no_case_ok by easy. apply valid_key_ok; [easy|now apply name_ends_stops].
    - now apply skips_after.
  Qed.
  Lemma end_read : forall ke n i r, map lower_ascii ke = lit "end:" -> after_breaks i r -> end_p (E := E) n (ke ++ n ++ i) = IOk r n.
  Proof.
    intros ke n i r K A. unfold end_p, line. apply (line_separated_ok _ _ _ (ke ++ n ++ i) i).
    - apply skips_none, keyword_no_break. eauto.
    - unfold preceded, pbind. rewrite tag_no_case_ok by easy. unfold cut, context. now rewrite tag_ok.
    - now apply skips_after.
  Qed.
  Lemma end_cases : forall n i, no_break i ->
    match end_p (E := E) n i with
    | IOk r x => exists ke j, map lower_ascii ke = lit "end:" /\ i = ke ++ n ++ j /\ after_breaks j r
    | IErr _ => ~ ends i
    | IFail _ => exists ke j, map lower_ascii ke = lit "end:" /\ i = ke ++ j /\ ~ has_prefix n j
    | IFuel => False
    end.
  Proof.
    intros n i N. destruct (starts_with (lit "end:") (map lower_ascii i)) eqn:Q.
    - apply keyword_spec in Q as (ke & x & K & ->). destruct (starts_with n x) eqn:Q.
      + apply starts_with_spec in Q as [j ->]. destruct (after_breaks_ex j) as [r A]. rewrite (end_read ke n j r) by easy. eauto.
      + unfold end_p, line.
        rewrite (line_separated_fail _ _ _ _ (add_context x "mismatching end" (from_kind x KTag)) (skips_none _ N)); [|unfold preceded, pbind; rewrite tag_no_case_ok by easy; unfold cut, context; now rewrite tag_err].
        exists ke, x. split; [easy|]. split; [easy|]. intros [r ->]. now rewrite starts_with_app in Q.
    - destruct (end_line_err _ (cut (context "mismatching end" (tag n))) _ _ (skips_none _ N) Q) as [e Er].
      unfold end_p. rewrite Er. now apply keyword_not.
  Qed.
  Lemma lfs_none : forall r, no_break r -> many0 (S (length r)) (tag (E := E) [LF]) r = IOk r [].
  Proof. intros r [N _]. cbn [many0]. now rewrite tag_err. Qed.
  Lemma begins_no_break : forall i, begins i -> no_break i.
  Proof. intros i (k & r & K & ->). apply keyword_no_break. eauto. Qed.

  Lemma reads_shrink :
    (forall i c r, comp_reads i c r -> begins i /\ suffix r i /\ length r < length i /\ no_break r) /\
    (forall n i ps cs r, body_reads n i ps cs r -> no_break i -> suffix r i /\ length r < length i /\ no_break r) /\
    (forall i, comp_stuck i -> begins i) /\ (forall i, body_stuck i -> True).
  Proof.
    apply (reads_mutind U (fun i c r => begins i /\ suffix r i /\ length r < length i /\ no_break r)
      (fun n i ps cs r => no_break i -> suffix r i /\ length r < length i /\ no_break r)
      (fun i => begins i) (fun _ => True)); try easy.
    - intros kb n i j ps cs r K N M A _ IH. apply after_suffix in A as [A Nj]. destruct (IH Nj) as (S & L & Nr).
      split; [now exists kb, (n ++ i)|]. assert (S' : suffix r (kb ++ n ++ i)).
      { eapply suffix_trans; [exact S|]. destruct A as [b ->]. exists (kb ++ n ++ b). now rewrite <- !app_assoc. }
      repeat apply conj; try easy; [|apply Nr..]. apply suffix_length in A. rewrite !app_length. lia.
    - intros n ke i r K A Nb. apply after_suffix in A as [A Nr]. split; [|split; [|easy]].
      + destruct A as [b ->]. exists (ke ++ n ++ b). now rewrite <- !app_assoc.
      + apply suffix_length in A. rewrite !app_length. destruct ke; [easy|]. cbn. lia.
    - intros n i c j ps cs r _ (B & S & L & Nj) _ IH _. destruct (IH Nj) as (S' & L' & Nr).
      split; [now apply (suffix_trans _ j)|]. split; [lia|easy].
    - intros n i p j ps cs r _ _ I _ _ IH _. apply item_suffix in I as [S Nj]. destruct (IH Nj) as (S' & L' & Nr).
      split; [now apply (suffix_trans _ j)|]. split; [apply suffix_length in S; lia|easy].
    - intros n i p j ps cs r _ _ I _ IH _. apply item_suffix in I as [S Nj]. destruct (IH Nj) as (S' & L' & Nr).
      split; [now apply (suffix_trans _ j)|]. split; [apply suffix_length in S; lia|easy].
    - intros kb n i j K _ _ _ _ _. now exists kb, (n ++ i).
  Qed.

  (** *** Everything the parser reads is in the language. *)
  Lemma body_sound : forall f,
    (forall i, no_break i -> match component (E := E) f i with
       | IOk r c => comp_reads i c r | IErr _ => ~ begins i \/ comp_stuck i | IFail _ => comp_fails i | IFuel => True end) ->
    forall m n i, no_break i -> match many_till m (body_p (E := E) f) (end_p n) i with
      | IOk r (l, _) => body_reads n i (children_props l) (children_comps l) r
      | IErr _ => body_stuck i
      | IFail _ => body_fails n i
      | IFuel => True
      end.
  Proof.
    intros f Hf. induction m as [|m IH]; intros n i N; [easy|]. cbn [many_till]. pose proof (end_cases n i N) as En.
    destruct (end_p n i) as [r x|e|e|]; try easy.
    - destruct En as (ke & j & K & -> & A). now constructor.
    - unfold body_p at 1, cut, context, alt2.
      pose proof (separated_none _ (pmap (@inl pcomp pprop) (component f)) i N) as S1.
      pose proof (separated_none _ (pmap (@inr pcomp pprop) (property_p)) i N) as S2.
      unfold pmap, pbind, pret in S1, S2. specialize (Hf i N).
      destruct (component f i) as [r c|e1|e1|].
      + destruct S1 as (r' & A & S1). unfold pmap, pbind, pret. rewrite S1. clear S2.
        apply reads_shrink in Hf as H. destruct H as (_ & S & L & Nr). apply no_breaks_self in A; [subst r'|easy].
        replace (length r =? length i) with false by lia. specialize (IH n r Nr).
        destruct (many_till m _ _ r) as [r2 [l x]|e2|e2|]; try easy.
        * apply (br_comp _ _ _ r); easy.
        * now apply (bs_comp _ c r).
        * now apply (bf_next_comp _ _ c r).
      + unfold pmap, pbind, pret. rewrite S1. destruct (property_p i) as [r p|e2|e2|] eqn:P.
        * destruct S2 as (r' & A & S2). rewrite S2.
          assert (I : item_reads i p r') by (exists r; split; [now apply prop_reads_iff|easy]).
          destruct (item_suffix _ _ _ I) as [S Nr]. specialize (IH n r' Nr).
          destruct (length r' =? length i) eqn:L.
          -- apply Nat.eqb_eq in L. apply suffix_same in L; [subst r'|easy]. destruct Hf as [B|C]; [now apply (bs_here _ p)|].
             apply reads_shrink in C. now destruct (begin_not_self _ _ C I).
          -- assert (r' <> i) by (intros ->; lia). destruct (many_till m _ _ r') as [r2 [l x]|e3|e3|]; try easy.
             ++ cbn [children_props children_comps flat_map app]. destruct Hf as [B|C]; [now apply (br_prop _ _ _ r')|now apply (br_begin _ _ _ r')].
             ++ destruct Hf as [B|C]; [now apply (bs_prop _ p r')|now apply (bs_begin _ p r')].
             ++ now apply (bf_next_prop _ _ p r').
        * pose proof (ErrorProofs.property_error (E := E) i) as X. rewrite P in X. now destruct X.
        * rewrite S2. pose proof (ErrorProofs.property_error (E := E) i) as X. rewrite P in X. now apply bf_prop.
        * now rewrite S2.
      + unfold pmap, pbind, pret. rewrite S1. now apply bf_comp.
      + unfold pmap, pbind, pret. now rewrite S1.
    - destruct En as (ke & j & K & -> & A). now constructor.
  Qed.
  Lemma component_sound : forall f i, no_break i -> match component (E := E) f i with
    | IOk r c => comp_reads i c r | IErr _ => ~ begins i \/ comp_stuck i | IFail _ => comp_fails i | IFuel => True end.
  Proof.
    induction f as [|f IH]; intros i N; [easy|].
    destruct (starts_with (lit "begin:") (map lower_ascii i)) eqn:Q.
    - apply keyword_spec in Q as (kb & x & K & ->). destruct (longest_name_ex x) as (n & j & -> & Nn & M).
      destruct (after_breaks_ex j) as [r A]. rewrite component_S. unfold pbind at 1. rewrite (begin_line kb n j r) by easy.
      unfold pbind at 1. destruct (after_suffix _ _ A) as [_ Nr]. pose proof (body_sound f IH (S (length r)) n r Nr) as B.
      destruct (many_till _ _ _ r) as [r2 [l y]|e|e|]; try easy.
      + unfold pbind. assert (no_break r2) by now apply reads_shrink in B. rewrite lfs_none by easy. now apply (cr_comp _ _ _ r).
      + right. now apply (cs_comp _ _ _ r).
      + now apply (cf_comp _ _ _ r).
    - destruct (component_not_begin f i i (skips_none _ N) Q) as [e ->]. left. now apply keyword_not.
  Qed.

  (** *** All of the language is read. *)
  Lemma reads_complete :
    (forall i c r, comp_reads i c r -> forall f, length i < f -> component (E := E) f i = IOk r c) /\
    (forall n i ps cs r, body_reads n i ps cs r -> no_break i -> forall f m, length i < f -> length i < m ->
       exists l, many_till m (body_p (E := E) f) (end_p n) i = IOk r (l, n) /\ children_props l = ps /\ children_comps l = cs) /\
    (forall i, comp_stuck i -> forall f, length i < f -> exists e, component (E := E) f i = IErr e) /\
    (forall i, body_stuck i -> no_break i -> forall n f m, length i < f -> length i < m ->
       exists e, many_till m (body_p (E := E) f) (end_p n) i = IErr e).
  Proof.
    assert (NE : forall i n, no_break i -> ~ ends i -> exists e, end_p (E := E) n i = IErr e).
    { intros i n N H. apply keyword_not in H. exact (end_line_err _ _ _ _ (skips_none _ N) H). }
    assert (BE : forall i, begins i -> ~ ends i).
    { intros i (k & r & K & ->) H. apply keyword_spec in H. rewrite begin_not_end in H by easy. easy. }
    assert (BC : forall i f c r, no_break i -> no_break r -> component (E := E) f i = IOk r c -> body_p f i = IOk r (inl c)).
    { intros i f c r N Nr H. unfold body_p, cut, context, alt2. pose proof (separated_none _ (pmap (@inl pcomp pprop) (component f)) i N) as S.
      unfold pmap, pbind, pret in *. rewrite H in S. destruct S as (r' & A & S). apply no_breaks_self in A; [subst r'|easy]. now rewrite S. }
    assert (BP : forall i f p r, no_break i -> (exists e, component (E := E) f i = IErr e) -> item_reads i p r -> body_p f i = IOk r (inr p)).
    { intros i f p r N [e H] (j & P & A). apply prop_reads_ok in P. unfold body_p, cut, context, alt2.
      pose proof (separated_none _ (pmap (@inl pcomp pprop) (component f)) i N) as S.
      unfold pmap, pbind, pret in *. rewrite H in S. rewrite S.
      rewrite (line_separated_ok _ _ _ i j r (inr p)); [easy|now apply skips_none| |now apply skips_after]. now rewrite P. }
    apply (reads_mutind U (fun i c r => forall f, length i < f -> component (E := E) f i = IOk r c)
      (fun n i ps cs r => no_break i -> forall f m, length i < f -> length i < m ->
       exists l, many_till m (body_p (E := E) f) (end_p n) i = IOk r (l, n) /\ children_props l = ps /\ children_comps l = cs)
      (fun i => forall f, length i < f -> exists e, component (E := E) f i = IErr e)
      (fun i => no_break i -> forall n f m, length i < f -> length i < m ->
       exists e, many_till m (body_p (E := E) f) (end_p n) i = IErr e)).
    - intros kb n i j ps cs r K N M A B IH [|f] L; [lia|]. destruct (after_suffix _ _ A) as [Sf Nj]. apply suffix_length in Sf.
      rewrite !app_length in L. assert (length kb > 0) by (destruct kb; [easy|cbn; lia]).
      rewrite component_S. unfold pbind at 1. rewrite (begin_line kb n i j) by easy. unfold pbind at 1.
      destruct (IH Nj f (S (length j)) ltac:(lia) ltac:(lia)) as (l & -> & <- & <-). unfold pbind.
      apply reads_shrink in B as (_ & _ & Nr); [|easy]. now rewrite lfs_none.
    - intros n ke i r K A _ f [|m] _ L; [lia|]. cbn [many_till]. rewrite (end_read ke n i r) by easy. now exists [].
    - intros n i c j ps cs r C IHc B IH N f [|m] L L'; [lia|]. cbn [many_till].
      destruct (proj1 reads_shrink _ _ _ C) as (Bi & S & Lj & Nj). destruct (NE i n N (BE _ Bi)) as [e ->].
      rewrite (BC i f c j N Nj (IHc f L)). replace (length j =? length i) with false by lia.
      destruct (IH Nj f m ltac:(lia) ltac:(lia)) as (l & -> & <- & <-). now eexists.
    - intros n i p j ps cs r Ne Nb I D B IH N f [|m] L L'; [lia|]. cbn [many_till].
      destruct (NE i n N Ne) as [e ->]. destruct (item_suffix _ _ _ I) as [S Nj]. rewrite (BP i f p j N); [| |easy].
      + assert (length j <> length i) by (intros Q; now apply D, suffix_same). apply suffix_length in S.
        replace (length j =? length i) with false by lia.
        destruct (IH Nj f m ltac:(lia) ltac:(lia)) as (l & -> & <- & <-). now eexists.
      + destruct f; [lia|]. apply keyword_not in Nb. exact (component_not_begin f i i (skips_none _ N) Nb).
    - intros n i p j ps cs r C IHc I B IH N f [|m] L L'; [lia|]. cbn [many_till].
      assert (Bi : begins i) by now apply reads_shrink.
      destruct (NE i n N (BE _ Bi)) as [e ->]. destruct (item_suffix _ _ _ I) as [S Nj]. rewrite (BP i f p j N); [|now apply IHc|easy].
      assert (length j <> length i).
      { intros Q. apply suffix_same in Q; [subst j|easy]. now destruct (begin_not_self i p Bi). }
      apply suffix_length in S. replace (length j =? length i) with false by lia.
      destruct (IH Nj f m ltac:(lia) ltac:(lia)) as (l & -> & <- & <-). now eexists.
    - intros kb n i j K N M A B IH [|f] L; [lia|]. destruct (after_suffix _ _ A) as [Sf Nj]. apply suffix_length in Sf.
      rewrite !app_length in L. assert (length kb > 0) by (destruct kb; [easy|cbn; lia]).
      rewrite component_S. unfold pbind at 1. rewrite (begin_line kb n i j) by easy. unfold pbind at 1.
      destruct (IH Nj n f (S (length j)) ltac:(lia) ltac:(lia)) as (e & ->). eauto.
    - intros i p Ne Nb I N n f [|m] L L'; [lia|]. cbn [many_till]. destruct (NE i n N Ne) as [e ->].
      rewrite (BP i f p i N); [| |easy].
      + rewrite Nat.eqb_refl. eauto.
      + destruct f; [lia|]. apply keyword_not in Nb. exact (component_not_begin f i i (skips_none _ N) Nb).
    - intros i c j C IHc B IH N n f [|m] L L'; [lia|]. cbn [many_till].
      destruct (proj1 reads_shrink _ _ _ C) as (Bi & S & Lj & Nj). destruct (NE i n N (BE _ Bi)) as [e ->].
      rewrite (BC i f c j N Nj (IHc f L)). replace (length j =? length i) with false by lia.
      destruct (IH Nj n f m ltac:(lia) ltac:(lia)) as (e' & ->). eauto.
    - intros i p j Ne Nb I D B IH N n f [|m] L L'; [lia|]. cbn [many_till].
      destruct (NE i n N Ne) as [e ->]. destruct (item_suffix _ _ _ I) as [S Nj]. rewrite (BP i f p j N); [| |easy].
      + assert (length j <> length i) by (intros Q; now apply D, suffix_same). apply suffix_length in S.
        replace (length j =? length i) with false by lia.
        destruct (IH Nj n f m ltac:(lia) ltac:(lia)) as (e' & ->). eauto.
      + destruct f; [lia|]. apply keyword_not in Nb. exact (component_not_begin f i i (skips_none _ N) Nb).
    - intros i p j C IHc I B IH N n f [|m] L L'; [lia|]. cbn [many_till].
      assert (Bi : begins i) by now apply reads_shrink.
      destruct (NE i n N (BE _ Bi)) as [e ->]. destruct (item_suffix _ _ _ I) as [S Nj]. rewrite (BP i f p j N); [|now apply IHc|easy].
      assert (length j <> length i).
      { intros Q. apply suffix_same in Q; [subst j|easy]. now destruct (begin_not_self i p Bi). }
      apply suffix_length in S. replace (length j =? length i) with false by lia.
      destruct (IH Nj n f m ltac:(lia) ltac:(lia)) as (e' & ->). eauto.
  Qed.

  Lemma fails_complete :
    (forall i, comp_fails i -> begins i /\ forall f, length i < f -> exists e, component (E := E) f i = IFail e) /\
    (forall n i, body_fails n i -> no_break i -> forall f m, length i < f -> length i < m ->
       exists e, many_till m (body_p (E := E) f) (end_p n) i = IFail e).
  Proof.
    assert (NE : forall i n, no_break i -> ~ ends i -> exists e, end_p (E := E) n i = IErr e).
    { intros i n N H. apply keyword_not in H. exact (end_line_err _ _ _ _ (skips_none _ N) H). }
    assert (BE : forall i, begins i -> ~ ends i).
    { intros i (k & r & K & ->) H. apply keyword_spec in H. rewrite begin_not_end in H by easy. easy. }
    assert (CE : forall i f, no_break i -> ~ begins i \/ comp_stuck i -> length i < f -> exists e, component (E := E) f i = IErr e).
    { intros i f N [B|C] L; [|now apply reads_complete]. destruct f; [lia|]. apply keyword_not in B.
      exact (component_not_begin f i i (skips_none _ N) B). }
    apply (fails_mutind U (fun i => begins i /\ forall f, length i < f -> exists e, component (E := E) f i = IFail e)
      (fun n i => no_break i -> forall f m, length i < f -> length i < m ->
         exists e, many_till m (body_p (E := E) f) (end_p n) i = IFail e)).
    - intros kb n i j K N M A B IH. split; [now exists kb, (n ++ i)|]. intros [|f] L; [lia|].
      destruct (after_suffix _ _ A) as [Sf Nj]. apply suffix_length in Sf.
      rewrite !app_length in L. assert (length kb > 0) by (destruct kb; [easy|cbn; lia]).
      rewrite component_S. unfold pbind at 1. rewrite (begin_line kb n i j) by easy. unfold pbind at 1.
      destruct (IH Nj f (S (length j)) ltac:(lia) ltac:(lia)) as (e & ->). eauto.
    - intros n ke i K H N f [|m] _ L; [lia|]. cbn [many_till]. pose proof (end_cases n _ N) as C.
      destruct (end_p n (ke ++ i)) as [r x|e|e|]; [| |eauto|easy].
      + exfalso. destruct C as (ke' & j & K' & Q & A). apply H. exists j. assert (Lk : length ke = length ke').
        { apply (f_equal (@length BinNums.N)) in K, K'. rewrite map_length in K, K'. exact (eq_trans K (eq_sym K')). }
        apply (f_equal (skipn (length ke))) in Q. rewrite skipn_app_exact, Lk, skipn_app_exact in Q. easy.
      + destruct C. now exists ke, i.
    - intros n i C [B IH] N f [|m] L L'; [lia|]. cbn [many_till]. destruct (NE i n N (BE _ B)) as [e ->].
      destruct (IH f L) as [e' H]. unfold body_p at 1, cut, context, alt2.
      rewrite (line_separated_fail _ _ i i e' (skips_none _ N)); [eauto|]. unfold pmap, pbind. now rewrite H.
    - intros n i Ne D R N f [|m] L L'; [lia|]. cbn [many_till]. destruct (NE i n N Ne) as [e ->].
      destruct (CE i f N D L) as [e' H]. unfold body_p at 1, cut, context, alt2.
      rewrite (line_separated_err _ _ i i e' (skips_none _ N)) by (unfold pmap, pbind; now rewrite H).
      pose proof (ErrorProofs.property_error (E := E) i) as X. destruct (property_p i) as [r p|e2|e2|] eqn:P; try easy.
      rewrite (line_separated_fail _ _ i i e2 (skips_none _ N)) by (unfold pmap, pbind; now rewrite P). eauto.
    - intros n i c j C B IH N f [|m] L L'; [lia|]. cbn [many_till].
      destruct (proj1 reads_shrink _ _ _ C) as (Bi & Sf & Lj & Nj). destruct (NE i n N (BE _ Bi)) as [e ->].
      assert (body_p f i = IOk j (inl c)) as ->.
      { unfold body_p, cut, context, alt2. rewrite (line_separated_ok _ _ i i j j (inl c)); [easy|now apply skips_none| |now apply skips_none].
        unfold pmap, pbind. now rewrite (proj1 reads_complete _ _ _ C f L). }
      replace (length j =? length i) with false by lia.
      destruct (IH Nj f m ltac:(lia) ltac:(lia)) as (e' & ->). eauto.
    - intros n i p j Ne D I Nj' B IH N f [|m] L L'; [lia|]. cbn [many_till]. destruct (NE i n N Ne) as [e ->].
      destruct (CE i f N D L) as [e' H]. destruct (item_suffix _ _ _ I) as [Sf Nj].
      assert (body_p f i = IOk j (inr p)) as ->.
      { unfold body_p, cut, context, alt2. rewrite (line_separated_err _ _ i i e' (skips_none _ N)) by (unfold pmap, pbind; now rewrite H).
        destruct I as (k & P & A). apply prop_reads_ok in P.
        rewrite (line_separated_ok _ _ i i k j (inr p)); [easy|now apply skips_none| |now apply skips_after]. unfold pmap, pbind. now rewrite P. }
      assert (length j <> length i) by (intros Q; now apply Nj', suffix_same). apply suffix_length in Sf.
      replace (length j =? length i) with false by lia.
      destruct (IH Nj f m ltac:(lia) ltac:(lia)) as (e'' & ->). eauto.
  Qed.

  (** *** Whole texts. *)
  Lemma component_skips : forall f i j, after_breaks i j -> component (E := E) (S f) i = component (S f) j.
  Proof.
    intros f i j A. rewrite component_S. unfold pbind at 1 5.
    assert (line (lit "BEGIN:") (valid_key_sequence (E := E)) i = line (lit "BEGIN:") valid_key_sequence j) as ->; [|easy].
    unfold line, line_separated, delimited, pbind. destruct (skips_after _ _ A) as [l ->].
    apply after_suffix in A as [_ N]. destruct (skips_none (E := E) _ N) as [l' ->]. easy.
  Qed.
  Lemma text_cases : forall i,
    match component_p (E := E) i with
    | IOk r c => text_reads i c r
    | IErr _ => exists j, after_breaks i j /\ (~ begins j \/ comp_stuck j)
    | IFail _ => text_fails i
    | IFuel => False
    end.
  Proof.
    intros i. pose proof (component_total (E := E) i) as T. unfold component_p in *. destruct (after_breaks_ex i) as [j A].
    rewrite (component_skips _ i j A) in *. destruct (after_suffix _ _ A) as [_ N]. pose proof (component_sound (S (length i)) j N) as S.
    destruct (component _ j) as [r c|e|e|]; try easy; exists j; auto.
  Qed.
  Lemma text_read : forall i c r, component_p (E := E) i = IOk r c <-> text_reads i c r.
  Proof.
    intros i c r. split.
    - intros H. pose proof (text_cases i) as T. now rewrite H in T.
    - intros (j & A & C). unfold component_p. rewrite (component_skips _ i j A). apply reads_complete; [easy|].
      apply after_suffix in A as [A _]. apply suffix_length in A. lia.
  Qed.
  Lemma text_stuck : forall i, (exists e, component_p (E := E) i = IErr e) <-> exists j, after_breaks i j /\ (~ begins j \/ comp_stuck j).
  Proof.
    intros i. split.
    - intros [e H]. pose proof (text_cases i) as T. now rewrite H in T.
    - intros (j & A & D). unfold component_p. rewrite (component_skips _ i j A). destruct (after_suffix _ _ A) as [S N].
      destruct D as [D|D].
      + apply keyword_not in D. exact (component_not_begin _ j j (skips_none _ N) D).
      + apply reads_complete; [easy|]. apply suffix_length in S. lia.
  Qed.
  Lemma text_failed : forall i, (exists e, component_p (E := E) i = IFail e) <-> text_fails i.
  Proof.
    intros i. split.
    - intros [e H]. pose proof (text_cases i) as T. now rewrite H in T.
    - intros (j & A & D). unfold component_p. rewrite (component_skips _ i j A). destruct (after_suffix _ _ A) as [Sf N].
      apply fails_complete; [easy|]. apply suffix_length in Sf. lia.
  Qed.
End Grammar.

(** ** The entry points *)
Section Entry.
  Context {U : Unicode} {E : Type} {PE : PErr E}.

  Lemma components_exact : forall i,
    (forall cs, (exists r, components_p (E := E) i = IOk r cs) <-> (exists c, cs = [c] /\ text_reads i c []) \/ cs = [] /\ text_other i)
    /\ ((exists e, components_p (E := E) i = IErr e \/ components_p (E := E) i = IFail e) <-> text_fails i).
  Proof.
    intros i. rewrite components_read. pose proof (text_cases (E := E) i) as T.
    pose proof (fun c r => proj2 (text_read (E := E) i c r)) as R. pose proof (proj2 (text_stuck (E := E) i)) as S.
    pose proof (proj2 (text_failed (E := E) i)) as F.
    assert (O : text_other i -> (exists e, component_p (E := E) i = IErr e) \/ exists c r, r <> [] /\ component_p (E := E) i = IOk r c).
    { intros (j & A & [D|[D|(c & r & N & C)]]); [left; apply S; eauto..|]. right. exists c, r. split; [easy|]. apply R. now exists j. }
    destruct (component_p i) as [r c|e|e|].
    - assert (F' : ~ text_fails i) by (intros H; apply F in H as [e H]; easy).
      destruct r as [|d r].
      + split; [|split; [now intros [e [H|H]]|easy]]. intros cs. split.
        * intros [r H]. injection H as <- <-. left. eauto.
        * intros [(c' & -> & H)|[-> H]]; [apply R in H; injection H as <-; eauto|].
          apply O in H as [[e H]|(c' & r & H & Q)]; [easy|]. injection Q as <- <-. easy.
      + split; [|split; [now intros [e [H|H]]|easy]]. intros cs. split.
        * intros [x H]. injection H as <- <-. right. split; [easy|]. destruct T as (j & A & C). exists j. split; [easy|]. right. right. now exists c, (d :: r).
        * intros [(c' & -> & H)|[-> H]]; [now apply R in H|eauto].
    - split; [|split; [now intros [x [H|H]]|]].
      + intros cs. split.
        * intros [r H]. injection H as <- <-. right. split; [easy|]. destruct T as (j & A & C). exists j. split; [easy|]. tauto.
        * intros [(c' & -> & H)|[-> H]]; [now apply R in H|eauto].
      + intros H. apply F in H as [x H]. easy.
    - split; [|split; eauto].
      intros cs. split; [now intros [r H]|]. intros [(c' & -> & H)|[-> H]]; [now apply R in H|].
      apply O in H as [[x H]|(c' & r & H & Q)]; easy.
    - easy.
  Qed.
End Entry.
Lemma read_components_exact : forall {U : Unicode} i,
  (forall cs, read_components i = Ok cs <-> (exists c, cs = [c] /\ text_reads i c []) \/ cs = [] /\ text_other i)
  /\ ((exists e, read_components i = Err e) <-> text_fails i).
Proof.
  intros U i. unfold read_components. destruct (components_exact (E := verror) i) as [A B]. split.
  - intros cs. rewrite <- A. destruct (components_p i) as [r l|e|e|]; cbn [finish]; split; try easy; try (intros [x H]; easy).
    + intros H. injection H as ->. eauto.
    + intros [x H]. now injection H as _ ->.
  - rewrite <- B. destruct (components_p i) as [r l|e|e|]; cbn [finish]; split; try (intros [x H]; easy); try (intros [x [H|H]]; easy);
      intros _; eauto.
Qed.
Lemma read_simple_exact : forall {U : Unicode} i,
  (forall cs, read_calendar_simple i = Ok cs <-> (exists c, cs = [c] /\ text_reads i c []) \/ cs = [] /\ text_other i)
  /\ ((exists e, read_calendar_simple i = Err e) <-> text_fails i).
Proof.
  intros U i. unfold read_calendar_simple. destruct (components_exact (E := str * ekind) i) as [A B]. split.
  - intros cs. rewrite <- A. destruct (components_p i) as [r l|e|e|]; cbn [finish]; split; try easy; try (intros [x H]; easy).
    + intros H. injection H as ->. eauto.
    + intros [x H]. now injection H as _ ->.
  - rewrite <- B. destruct (components_p i) as [r l|e|e|]; cbn [finish]; split; try (intros [x H]; easy); try (intros [x [H|H]]; easy);
      intros _; eauto.
Qed.
Lemma read_component_exact : forall {U : Unicode} i c, read_component i = Ok c <-> exists r, text_reads i c r.
Proof.
  intros U i c. unfold read_component. split.
  - intros H. destruct (component_p i) as [r c'|e|e|] eqn:Q; try easy. injection H as ->. exists r. now apply (text_read (E := verror)).
  - intros [r H]. apply (text_read (E := verror)) in H. now rewrite H.
Qed.
Lemma text_one : forall {U : Unicode} i,
  (forall c c' r r', text_reads i c r -> text_reads i c' r' -> c = c' /\ r = r')
  /\ ((exists c, text_reads i c []) \/ text_other i \/ text_fails i)
  /\ ~ ((exists c, text_reads i c []) /\ text_other i) /\ ~ (text_fails i /\ (text_other i \/ exists c r, text_reads i c r)).
Proof.
  intros U i. destruct (components_exact (E := verror) i) as [A B].
  assert (X : forall c r, text_reads i c r -> (exists cs x, components_p (E := verror) i = IOk x cs)).
  { intros c r H. apply (text_read (E := verror)) in H. rewrite components_read, H. destruct r; eauto. }
  split; [|split; [|split]].
  - intros c c' r r' H H'. apply (text_read (E := verror)) in H, H'. rewrite H in H'. injection H' as -> ->. easy.
  - pose proof (component_total (E := verror) i) as T. rewrite components_read in *. destruct (component_p i) as [[|d r] c|e|e|] eqn:Q; try easy.
    + left. exists c. now apply (text_read (E := verror)).
    + right. left. destruct (proj1 (A [])) as [(c' & ? & _)|[_ ?]]; eauto. easy.
    + right. left. destruct (proj1 (A [])) as [(c' & ? & _)|[_ ?]]; eauto. easy.
    + right. right. apply B. eauto.
  - intros [[c H] O]. assert (H' := proj2 (A [c])). assert (O' := proj2 (A [])).
    destruct H' as [r H']; [left; eauto|]. destruct O' as [r' O']; [now right|]. rewrite H' in O'. easy.
  - intros [F D]. apply B in F as [e F].
    assert (exists cs x, components_p (E := verror) i = IOk x cs) as (cs & x & Q).
    { destruct D as [O|(c & r & H)]; [|eauto]. exists []. apply A. now right. }
    destruct F as [F|F]; rewrite Q in F; easy.
Qed.
Lemma read_calendar_exact : forall {U : Unicode} i,
  (forall k, read_calendar i = Ok k <->
     (exists ps cs, text_reads i (mk_pcomp (lit "VCALENDAR") ps cs) [] /\ k = mk_pcal ps cs)
     \/ (exists c, text_reads i c [] /\ pc_name c <> lit "VCALENDAR" /\ k = mk_pcal [] [c])
     \/ text_other i /\ k = mk_pcal [] [])
  /\ ((exists e, read_calendar i = Err e) <-> text_fails i).
Proof.
  intros U i. destruct (read_components_exact i) as [A B]. unfold read_calendar. fold (read_components i).
  split; [|rewrite <- B; destruct (read_components i); cbn [rmap]; split; intros [x H]; try easy; eauto].
  intros k. split.
  - intros H. destruct (read_components i) as [cs| |] eqn:Q; try easy. injection H as <-.
    destruct (proj1 (A cs) eq_refl) as [(c & -> & T)|[-> T]]; [|right; right; now split].
    cbn [pcal_of_roots]. destruct (str_eqb (pc_name c) (lit "VCALENDAR")) eqn:N.
    + left. destruct c as [n ps cs]. apply str_eqb_eq in N. cbn in N. subst n. now exists ps, cs.
    + right. left. exists c. split; [easy|]. split; [|easy]. intros K. rewrite K, str_eqb_refl in N. discriminate.
  - intros [(ps & cs & T & ->)|[(c & T & N & ->)|[T ->]]].
    + rewrite (proj2 (A [mk_pcomp (lit "VCALENDAR") ps cs])) by eauto. reflexivity.
    + rewrite (proj2 (A [c])) by eauto. cbn [rmap pcal_of_roots]. destruct (str_eqb (pc_name c) (lit "VCALENDAR")) eqn:K; [|easy].
      now apply str_eqb_eq in K.
    + rewrite (proj2 (A [])) by auto. reflexivity.
Qed.
Lemma read_component_fails : forall {U : Unicode} i, (exists e, read_component i = Err e) <->
  text_fails i \/ exists j, after_breaks i j /\ (~ begins j \/ comp_stuck j).
Proof.
  intros U i. rewrite <- (text_failed (E := verror)), <- (text_stuck (E := verror)). unfold read_component.
  destruct (component_p i) as [r c|e|e|]; cbn [finish]; split; try (intros [x H]; easy); try (intros [[x H]|[x H]]; easy); eauto.
Qed.
Lemma read_nothing : forall {U : Unicode} i, read_components i = Ok [] -> text_other i.
Proof. intros U i H. apply read_components_exact in H as [(c & Q & _)|[_ H]]; [easy|exact H]. Qed.
