(** Lines with END and a name that is not the name of the component. *)
From Verif Require Import Str StrFacts Fold Spec ValueTypes Property Chrono DateTime Component Calendar Nom Parser SpecBuild SpecTree SpecDoc SpecItems
  SpecGrammar SpecRound SpecExact SpecRefold SpecCut SpecEdge ParserProofs TotalProofs ReadProofs AcceptProofs RejectProofs ItemProofs DocProofs GrammarProofs TruncProofs EdgeProofs.
From Coq Require Import ZifyBool ZifyNat ZifyN.

Section EndLines.
  Context {U : Unicode}.
  Notation iok := (either (wline_ok CrLf) (wtree_ok CrLf)).
  Notation lines_of its := (flat_map (fun x : wline + wtree => match x with inl l => [wline_read l] | inr _ => [] end) its).
  Notation trees_of its := (flat_map (fun x : wline + wtree => match x with inl _ => [] | inr t => [wtree_read t] end) its).

  (** Items before whatever can be read. *)
  Lemma items_before : forall n its tail ps cs r, Forall iok its -> no_break tail -> body_reads n tail ps cs r ->
    body_reads n (concat (map strict_item its) ++ tail) (lines_of its ++ ps) (trees_of its ++ cs) r.
  Proof.
    intros n its tail ps cs r O N H. induction O as [|x its Ox O IHl]; [easy|]. cbn [map concat flat_map]. rewrite <- app_assoc.
    pose proof (self_after _ (concat_start its _ O N)) as A. destruct Ox as [l Ol|t Ot]; cbn [strict_item app].
    - rewrite <- app_assoc. destruct (line_start l (concat (map strict_item its) ++ tail) Ol) as (S1 & S2 & S3).
      eapply br_prop; [exact S1|exact S2|apply line_item; eassumption| |exact IHl]. now apply crlf_longer.
    - apply (br_comp n _ _ (concat (map strict_item its) ++ tail)); [|easy]. now apply render_on.
  Qed.
  (** A line of nothing but a name. *)
  Lemma crlf_ends : forall t, name_ends ([CR; LF] ++ t).
  Proof. intros t. apply (proj1 (break_ends [] t)). Qed.
  Lemma bare_item : forall x t t', name_ok x -> x <> [] -> ~ reserved (x ++ [CR; LF] ++ t) -> after_breaks t t' ->
    item_reads (x ++ [CR; LF] ++ t) (mk_pprop x [] []) t'.
  Proof.
    intros x t t' K X R A. exists t. split; [|easy]. split; [easy|]. exists ([CR; LF] ++ t). split; [left; exists [CR; LF]; split; [now left|easy]|].
    right. split; [|exists x; repeat split; try easy; apply crlf_ends].
    intros q y (w & k & qs & p & v & E & Wh & Kk & P & _).
    destruct w as [|c w].
    - cbn [app] in E. change (CR :: LF :: t) with ([CR; LF] ++ t) in E. 
      assert (Nd : name_ends (p ++ COLON :: v ++ y)).
      { assert (S1 : ~ key_char SEMI) by (intros Z; apply is_key_char_spec in Z; discriminate Z).
        assert (C1 : ~ key_char COLON) by (intros Z; apply is_key_char_spec in Z; discriminate Z).
        inversion P as [rest P0 E1 E2 E3|q1 qs' s p' rest P1 P2 E1 E2 E3]; subst; intros c r Q; [injection Q as <- _; exact C1|].
        inversion P1; subst; injection Q as <- _; exact S1. }
      apply name_cut in E as [_ E]; try easy; [|apply crlf_ends].
      inversion P as [rest P0 E1 E2 E3|q1 qs' s p' rest P1 P2 E1 E2 E3]; subst; [discriminate E|]. inversion P1; subst; discriminate E.
    - inversion Wh as [|? ? W' _]; subst. destruct x as [|d x]; [easy|]. injection E as -> _. inversion K as [|? ? K' _]; subst. now apply white_key in W'.
  Qed.
  Lemma name_prefix : forall p k r, name_ok p -> name_ends r -> has_prefix p (k ++ r) -> has_prefix p k.
  Proof.
    intros p k r P N (y & E). apply TruncProofs.app_cases in E as [(x & -> & _)|(x & -> & -> & X)]; [now exists x|].
    exfalso. destruct x as [|c x]; [easy|]. apply (N c (x ++ y)); [easy|]. unfold name_ok in P. apply Forall_app in P as [_ P]. now inversion P.
  Qed.
  Lemma crlf_not_reserved : forall x t, name_ok x -> x <> [] -> ~ has_prefix (lit "END") x -> ~ has_prefix (lit "BEGIN") x -> ~ reserved (x ++ [CR; LF] ++ t).
  Proof.
    intros x t K X E B (w & r & Wh & R). destruct w as [|d w].
    - destruct R as [R|R]; [apply E|apply B]; (apply (name_prefix _ x ([CR; LF] ++ t)); [now apply name_ok_spec|apply crlf_ends|now exists r]).
    - inversion Wh as [|? ? W' _]; subst. destruct x as [|c x]; [easy|]. inversion K as [|? ? K' _]; subst. destruct R as [R|R]; injection R as -> _; now apply white_key in W'.
  Qed.
  Lemma bare_no_keyword : forall w x t, (w = "begin:" \/ w = "end:")%string -> name_ok x -> ~ keyword (lit w) (x ++ [CR; LF] ++ t).
  Proof.
    intros w x t Hw K (k & r & L & E).
    assert (Q : exists k1, k = k1 ++ [COLON] /\ name_ok k1).
    { assert (Q : exists k1 c, k = k1 ++ [c] /\ lower_ascii c = COLON /\ map lower_ascii k1 = lit (if string_dec w "end:" then "end" else "begin")).
      { destruct Hw as [->| ->]; cbn [string_dec].
        - destruct k as [|c1 [|c2 [|c3 [|c4 [|c5 [|c6 [|]]]]]]]; try discriminate L. exists [c1; c2; c3; c4; c5], c6. split; [easy|]. cbn [map] in L.
          injection L as L1 L2 L3 L4 L5 L6. split; [exact L6|]. cbn [map]. rewrite L1, L2, L3, L4, L5. reflexivity.
        - destruct k as [|c1 [|c2 [|c3 [|c4 [|]]]]]; try discriminate L. exists [c1; c2; c3], c4. split; [easy|]. cbn [map] in L.
          injection L as L1 L2 L3 L4. split; [exact L4|]. cbn [map]. rewrite L1, L2, L3. reflexivity. }
      destruct Q as (k1 & c & -> & C & Q). exists k1. split.
      - f_equal. f_equal. unfold lower_ascii, is_upper, in_range in C. match type of C with (if ?b then _ else _) = _ => destruct b eqn:Z end; unfold COLON in *; lia.
      - unfold name_ok. apply Forall_forall. intros d D. right. apply (in_map lower_ascii) in D. rewrite Q in D.
        assert (Z : Forall (fun z => (97 <= z <= 122)%N) (lit (if string_dec w "end:" then "end" else "begin"))).
        { destruct (string_dec w "end:"); repeat (apply Forall_cons; [vm_compute; split; discriminate|]); apply Forall_nil. }
        rewrite Forall_forall in Z. specialize (Z _ D). unfold lower_ascii, is_upper, in_range in Z.
        match type of Z with context [if ?b then _ else _] => destruct b eqn:Y end; unfold is_alnum, is_upper, is_lower_ascii, is_digit, in_range; replace (d <? 128)%N with true by lia; lia. }
    destruct Q as (k1 & -> & K1). rewrite <- app_assoc in E. apply name_cut in E as [_ E]; try easy; [apply crlf_ends|].
    intros c s Q. injection Q as <- _. intros Z. apply is_key_char_spec in Z. discriminate Z.
  Qed.

  Lemma mislabelled_reads : forall k its1 n its m its2 x, wtree_ok CrLf (W k (its1 ++ inr (W n its) :: its2)) -> name_ok m -> m = n ++ x -> ~ bold_start x ->
    read_component (mislabelled k its1 n its m its2)
    = Ok (mk_pcomp k (lines_of its1 ++ named_only x ++ lines_of its2) (trees_of its1 ++ wtree_read (W n its) :: trees_of its2)).
  Proof.
    intros k its1 n its m its2 x O M E B. inversion O as [? ? Hk Ha]; subst. apply Forall_app in Ha as [O1 Ha]. inversion Ha as [|? ? Ot O2]; subst.
    inversion Ot as [|? Ot']; subst. inversion Ot' as [? ? Hn Hits]; subst.
    assert (Hx : name_ok x) by (unfold name_ok in M; apply Forall_app in M; apply M).
    set (last := lit "END:" ++ k ++ [CR; LF]).
    assert (Nl : no_break last) by (apply no_break_head; discriminate).
    assert (An : after_breaks [CR; LF] []).
    { exists [CR; LF]. split; [|split; [easy|apply no_break_spec, no_break_nil]]. change [CR; LF] with ([CR; LF] ++ []). constructor; [now left|constructor]. }
    assert (Hl : body_reads k last [] [] []) by now apply br_end.
    pose proof (concat_start its2 last O2 Nl) as N2.
    pose proof (items_before k its2 last [] [] [] O2 Nl Hl) as H2. rewrite !app_nil_r in H2. set (t2 := concat (map strict_item its2) ++ last) in *.
    (* what follows END:n *)
    assert (T : exists j, after_breaks (x ++ [CR; LF] ++ t2) j /\ body_reads k j (named_only x ++ lines_of its2) (trees_of its2) []).
    { destruct x as [|c x].
      - exists t2. split; [|exact H2]. apply (proj2 (break_ends n t2) Hn). now apply self_after.
      - assert (Nx : no_break ((c :: x) ++ [CR; LF] ++ t2)).
        { apply no_break_head; intros ->; inversion Hx as [|? ? Hc _]; subst; now apply white_key in Hc; [|cbn; auto]. }
        exists ((c :: x) ++ [CR; LF] ++ t2). split; [now apply self_after|]. cbn [named_only app].
        apply (br_prop k ((c :: x) ++ [CR; LF] ++ t2) _ t2); [apply (bare_no_keyword "end:"); auto|apply (bare_no_keyword "begin:"); auto| | |exact H2].
        + apply bare_item; try easy; [|now apply self_after]. unfold bold_start in B. apply crlf_not_reserved; [easy|easy|tauto|tauto].
        + intros Q. apply (f_equal (@length N)) in Q. rewrite !app_length in Q. cbn in Q. lia. }
    destruct T as (j & A & T).
    assert (Ci : comp_reads ((lit "BEGIN:" ++ n ++ [CR; LF] ++ concat (map strict_item its) ++ lit "END:" ++ (n ++ x) ++ [CR; LF]) ++ t2) (wtree_read (W n its)) j).
    { rewrite <- !app_assoc. cbn [wtree_read]. set (e := lit "END:" ++ n ++ x ++ [CR; LF] ++ t2). assert (Ne : no_break e) by (apply no_break_head; discriminate).
      apply (begin_reads n _ (concat (map strict_item its) ++ e)); try easy; [now apply self_after, concat_start|].
      rewrite <- (app_nil_r (lines_of its)), <- (app_nil_r (trees_of its)). apply items_before; try easy. now apply br_end. }
    assert (Nc : no_break ((lit "BEGIN:" ++ n ++ [CR; LF] ++ concat (map strict_item its) ++ lit "END:" ++ (n ++ x) ++ [CR; LF]) ++ t2)) by (apply no_break_head; discriminate).
    pose proof (br_comp k _ _ j _ _ _ Ci T) as Hc. pose proof (items_before k its1 _ _ _ _ O1 Nc Hc) as H1.
    apply read_component_exact. exists []. exists (mislabelled k its1 n its (n ++ x) its2). split; [apply self_after, no_break_head; discriminate|].
    unfold mislabelled. fold last. fold t2. refine (begin_reads k _ _ _ _ _ Hk _ H1). now apply self_after, concat_start.
  Qed.
  Lemma fails_read : forall i, text_fails i -> exists e, read_component i = Err e.
  Proof. intros i H. apply read_component_fails. now left. Qed.
  Lemma mislabelled_fails : forall k its1 n its m its2, wtree_ok CrLf (W k (its1 ++ inr (W n its) :: its2)) -> name_ok m ->
    (~ has_prefix n m \/ exists x, m = n ++ x /\ bold_start x) -> exists e, read_component (mislabelled k its1 n its m its2) = Err e.
  Proof.
    intros k its1 n its m its2 O M H. inversion O as [? ? Hk Ha]; subst. apply Forall_app in Ha as [O1 Ha]. inversion Ha as [|? ? Ot O2]; subst.
    inversion Ot as [|? Ot']; subst. inversion Ot' as [? ? Hn Hits]; subst.
    set (last := lit "END:" ++ k ++ [CR; LF]). set (t2 := concat (map strict_item its2) ++ last).
    apply fails_read. exists (mislabelled k its1 n its m its2). split; [apply self_after, no_break_head; discriminate|].
    unfold mislabelled. fold last. fold t2.
    set (c := lit "BEGIN:" ++ n ++ [CR; LF] ++ concat (map strict_item its) ++ lit "END:" ++ m ++ [CR; LF]).
    assert (Nc : no_break (c ++ t2)) by (apply no_break_head; discriminate).
    apply (cf_comp (lit "BEGIN:") k _ (concat (map strict_item its1) ++ c ++ t2)); [easy|easy|apply crlf_ends|apply (proj2 (break_ends k _) Hk); now apply self_after, concat_start|].
    apply fails_after; try easy. unfold c. rewrite <- !app_assoc. set (e := lit "END:" ++ m ++ [CR; LF] ++ t2).
    assert (Ne : no_break e) by (apply no_break_head; discriminate).
    destruct H as [H|(x & -> & B)].
    - apply bf_comp. apply (cf_comp (lit "BEGIN:") n _ (concat (map strict_item its) ++ e)); [easy|easy|apply crlf_ends|apply (proj2 (break_ends n _) Hn); now apply self_after, concat_start|].
      apply fails_after; try easy. apply bf_end; [easy|]. intros P. apply H. apply (name_prefix n m ([CR; LF] ++ t2)); [easy|apply crlf_ends|exact P].
    - assert (Hx : name_ok x) by (unfold name_ok in M; apply Forall_app in M; apply M).
      assert (Q : exists w, x = lit "END" ++ w \/ x = lit "BEGIN" ++ w) by (destruct B as [(w & ->)|(w & ->)]; exists w; auto). destruct Q as (w & Q).
      assert (Nx : no_break (x ++ [CR; LF] ++ t2)) by (destruct Q as [->| ->]; apply no_break_head; discriminate).
      eapply bf_next_comp.
      + apply (begin_reads n _ (concat (map strict_item its) ++ e)); [easy|now apply self_after, concat_start|].
        apply items_before; try easy. unfold e. rewrite <- !app_assoc. apply br_end; [easy|].
        apply self_after. exact Nx.
      + apply bf_prop; [apply (bare_no_keyword "end:"); auto|left; apply (bare_no_keyword "begin:"); auto|].
        exists [], (w ++ [CR; LF] ++ t2). split; [constructor|]. cbn [app]. destruct Q as [->| ->]; [left|right]; now rewrite <- app_assoc.
  Qed.
  Theorem mislabelled_exact : forall k its1 n its m its2, wtree_ok CrLf (W k (its1 ++ inr (W n its) :: its2)) -> name_ok m ->
    let s := mislabelled k its1 n its m its2 in
    (forall c, read_component s = Ok c <-> exists x, m = n ++ x /\ ~ bold_start x
       /\ c = mk_pcomp k (lines_of its1 ++ named_only x ++ lines_of its2) (trees_of its1 ++ wtree_read (W n its) :: trees_of its2))
    /\ ((exists e, read_component s = Err e) <-> ~ exists x, m = n ++ x /\ ~ bold_start x).
  Proof.
    intros k its1 n its m its2 O M s.
    assert (D : forall p y : str, {r | y = p ++ r} + {~ has_prefix p y}).
    { intros p. induction p as [|a p IH]; intros y; [left; now exists y|]. destruct y as [|b y]; [right; intros (r & Q); discriminate Q|].
      destruct (N.eq_dec a b) as [->|Nab]; [|right; intros (r & Q); injection Q; congruence]. destruct (IH y) as [(r & ->)|Np]; [left; now exists r|right].
      intros (r & Q). injection Q as ->. apply Np. now exists r. }
    assert (X : (exists x, m = n ++ x /\ ~ bold_start x) \/ (~ has_prefix n m \/ exists x, m = n ++ x /\ bold_start x)).
    { destruct (D n m) as [(x & ->)|Np]; [|auto]. unfold bold_start. destruct (D (lit "END") x) as [(r & ->)|E].
      - right. right. eexists. split; [reflexivity|]. left. now exists r.
      - destruct (D (lit "BEGIN") x) as [(r & ->)|B]; [right; right; eexists; split; [reflexivity|]; right; now exists r|]. left. exists x. tauto. }
    assert (Y : (~ has_prefix n m \/ exists x, m = n ++ x /\ bold_start x) -> ~ exists x, m = n ++ x /\ ~ bold_start x).
    { intros H (x & -> & B). destruct H as [H|(y & E & Hb)]; [apply H; now exists x|]. apply app_inv_head in E as ->. easy. }
    split.
    - intros c. split.
      + intros H. destruct X as [(x & E & B)|X]; [|apply (mislabelled_fails k its1 n its m its2 O M) in X as (e & X); unfold s in H; rewrite X in H; discriminate H].
        pose proof (mislabelled_reads k its1 n its m its2 x O M E B) as R. fold s in R. rewrite R in H. injection H as <-. exists x. tauto.
      + intros (x & E & B & ->). now apply mislabelled_reads.
    - split.
      + intros (e & H) (x & E & B). pose proof (mislabelled_reads k its1 n its m its2 x O M E B) as R. fold s in R. rewrite R in H. discriminate H.
      + intros H. destruct X as [X|X]; [easy|]. now apply mislabelled_fails.
  Qed.
End EndLines.
