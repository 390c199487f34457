(** Exactly which parsed calendars come back when their own text is read. *)
From Coq Require Import ZifyBool ZifyNat ZifyN.
From Verif Require Import Str StrFacts Spec Fold UnfoldProofs FoldProofs Text TextProofs ValueTypes Property Chrono DateTime
  Component Alarm Calendar Nom Parser SpecBuild SpecDate SpecTree SpecDoc SpecConv SpecRound SpecText SpecItems SpecGrammar SpecBack SpecFold SpecReprint BuildProofs
  DateProofs ValueProofs TreeProofs ParserProofs AcceptProofs ErrorProofs DocProofs ConvProofs RoundProofs RoundChecks ItemProofs GrammarProofs WrittenProofs LfProofs CutProofs BackProofs.

(** ** Weights: backslashes and double quotes *)

Definition marks (c : N) : nat := if (c =? DQ)%N then 1 else if (c =? BSL)%N then 1 else 0.
Lemma marks_in : forall c, marks c <> 0 -> In c [LF; DQ; BSL].
Proof. intros c. unfold marks. destruct (N.eqb_spec c DQ) as [->|_]; [cbn; auto|]. destruct (N.eqb_spec c BSL) as [->|_]; [cbn; auto|easy]. Qed.
Lemma wt_replace_less : forall f p rep, p <> [] -> wt f rep < wt f p -> forall s, contains p s = true -> wt f (replace p rep s) < wt f s.
Proof.
  intros f p rep N R s. induction s as [s IH] using (well_founded_induction (well_founded_ltof _ (@length _))). unfold ltof in IH.
  intros C. destruct s as [|c s]; [destruct p; [easy|discriminate C]|]. destruct (starts_with p (c :: s)) eqn:E.
  - apply starts_with_spec in E as [r Er]. rewrite Er in *. destruct p as [|d p]; [easy|].
    rewrite replace_match, !wt_app. pose proof (wt_replace f (d :: p) rep N ltac:(lia) r). lia.
  - rewrite replace_skip by easy. rewrite !wt_cons. cbn [contains] in C. rewrite E in C. cbn [orb] in C.
    specialize (IH s ltac:(cbn; lia) C). lia.
Qed.
Lemma escapes_contains : forall v, escapes v -> exists d, In d [BSL; COMMA; SEMI; COLON; 78%N; 110%N] /\ contains [BSL; d] v = true.
Proof.
  intros v (a & d & b & -> & I). exists d. split; [easy|]. induction a as [|c a IH].
  - change (contains [BSL; d] ([BSL; d] ++ b) = true). cbn [app contains]. change (BSL :: d :: b) with ([BSL; d] ++ b). now rewrite starts_with_app.
  - cbn [app contains]. rewrite IH. now rewrite orb_true_r.
Qed.
Lemma unescape_lighter : forall f, wt f [BSL] < wt f [BSL; BSL] -> wt f [COMMA] < wt f [BSL; COMMA] -> wt f [SEMI] < wt f [BSL; SEMI] ->
  wt f [COLON] < wt f [BSL; COLON] -> wt f [LF] < wt f [BSL; 78%N] -> wt f [LF] < wt f [BSL; 110%N] ->
  forall v, escapes v -> wt f (unescape_text v) < wt f v.
Proof.
  intros f L1 L2 L3 L4 L5 L6 v H. apply escapes_contains in H as (d & I & C). unfold unescape_text.
  assert (G : contains [BSL; BSL] v || contains [BSL; COMMA] v || contains [BSL; SEMI] v
     || contains [BSL; COLON] v || contains [BSL; 78%N] v || contains [BSL; 110%N] v = true).
  { destruct I as [<-|[<-|[<-|[<-|[<-|[<-|[]]]]]]]; rewrite C, ?orb_true_r; reflexivity. }
  rewrite G. revert I C. clear G.
  assert (S : forall x y (g : str -> str) ds, True -> wt f [y] < wt f [BSL; x] ->
    (forall s, wt f (g s) <= wt f s) ->
    (forall s, In d ds -> contains [BSL; d] s = true -> wt f (g s) < wt f s) ->
    forall s, In d (x :: ds) -> contains [BSL; d] s = true -> wt f (g (replace [BSL; x] [y] s)) < wt f s).
  { intros x y g ds _ L M IH s I C. destruct (contains [BSL; x] s) eqn:E.
    - pose proof (wt_replace_less f [BSL; x] [y] ltac:(easy) L s E). specialize (M (replace [BSL; x] [y] s)). lia.
    - rewrite replace_absent by easy. destruct I as [<-|I]; [congruence|]. now apply IH. }
  assert (M : forall x y, wt f [y] < wt f [BSL; x] -> forall s, wt f (replace [BSL; x] [y] s) <= wt f s).
  { intros x y L. apply wt_replace; [easy|lia]. }
  assert (M0 : forall s : str, wt f s <= wt f s) by lia.
  assert (S0 : forall s : str, In d [] -> contains [BSL; d] s = true -> wt f s < wt f s) by easy.
  assert (MM : forall x y (g : str -> str), wt f [y] < wt f [BSL; x] -> (forall s, wt f (g s) <= wt f s) ->
    forall s, wt f (g (replace [BSL; x] [y] s)) <= wt f s).
  { intros x y g L G s. etransitivity; [apply G|now apply M]. }
  revert v.
  apply (S BSL BSL (fun s => replace [BSL; 110%N] [LF] (replace [BSL; 78%N] [LF] (replace [BSL; COLON] [COLON] (replace [BSL; SEMI] [SEMI] (replace [BSL; COMMA] [COMMA] s)))))); try (now left); try easy.
  { apply (MM COMMA COMMA (fun s => replace [BSL; 110%N] [LF] (replace [BSL; 78%N] [LF] (replace [BSL; COLON] [COLON] (replace [BSL; SEMI] [SEMI] s))))); [easy|].
    apply (MM SEMI SEMI (fun s => replace [BSL; 110%N] [LF] (replace [BSL; 78%N] [LF] (replace [BSL; COLON] [COLON] s)))); [easy|].
    apply (MM COLON COLON (fun s => replace [BSL; 110%N] [LF] (replace [BSL; 78%N] [LF] s))); [easy|].
    apply (MM 78%N LF (fun s => replace [BSL; 110%N] [LF] s)); [easy|]. now apply M. }
  apply (S COMMA COMMA (fun s => replace [BSL; 110%N] [LF] (replace [BSL; 78%N] [LF] (replace [BSL; COLON] [COLON] (replace [BSL; SEMI] [SEMI] s))))); try (now right); try easy.
  { apply (MM SEMI SEMI (fun s => replace [BSL; 110%N] [LF] (replace [BSL; 78%N] [LF] (replace [BSL; COLON] [COLON] s)))); [easy|].
    apply (MM COLON COLON (fun s => replace [BSL; 110%N] [LF] (replace [BSL; 78%N] [LF] s))); [easy|].
    apply (MM 78%N LF (fun s => replace [BSL; 110%N] [LF] s)); [easy|]. now apply M. }
  apply (S SEMI SEMI (fun s => replace [BSL; 110%N] [LF] (replace [BSL; 78%N] [LF] (replace [BSL; COLON] [COLON] s)))); try (now right); try easy.
  { apply (MM COLON COLON (fun s => replace [BSL; 110%N] [LF] (replace [BSL; 78%N] [LF] s))); [easy|].
    apply (MM 78%N LF (fun s => replace [BSL; 110%N] [LF] s)); [easy|]. now apply M. }
  apply (S COLON COLON (fun s => replace [BSL; 110%N] [LF] (replace [BSL; 78%N] [LF] s))); try (now right); try easy.
  { apply (MM 78%N LF (fun s => replace [BSL; 110%N] [LF] s)); [easy|]. now apply M. }
  apply (S 78%N LF (fun s => replace [BSL; 110%N] [LF] s)); try (now right); try easy.
  { now apply M. }
  apply (S 110%N LF (fun s => s)); try (now right); easy.
Qed.
Lemma unescape_less : forall v, escapes v -> wt marks (unescape_text v) < wt marks v.
Proof. apply unescape_lighter; apply Nat.ltb_lt; reflexivity. Qed.
Lemma unfold_marks : forall s, wt marks (unfold s) = wt marks s.
Proof.
  intros s. pose proof (unfold_unfolds s) as H. generalize dependent (unfold s). intros t H.
  induction H as [|c r t B H IH|c r t B H IH|c r t F H IH]; [easy| | |rewrite !wt_cons; lia].
  - rewrite !wt_cons, IH. destruct B as [-> | ->]; reflexivity.
  - rewrite !wt_cons, IH. destruct B as [-> | ->]; reflexivity.
Qed.
Lemma fold_marks : forall l s, fold_line l = Ret s -> wt marks s = wt marks l.
Proof.
  intros l s F. apply fold_line_shape in F as (ps & last & -> & -> & _). induction ps as [|p ps IH]; [easy|].
  cbn [join_fold concat]. rewrite !wt_app, IH. change (wt marks [CR; LF; SP]) with 0. rewrite wt_app. lia.
Qed.
Lemma line_marks : forall l s, write_folded l = Ret s -> wt marks s = wt marks l.
Proof.
  intros l s W. unfold write_folded in W. destruct (fold_line l) as [x| |] eqn:F; cbn [obind] in W; try easy. injection W as <-.
  rewrite wt_app, (fold_marks _ _ F). change (wt marks crlf) with 0. lia.
Qed.
Lemma stamp_marks : forall d, wt marks (format_utc_date_time d) = 0.
Proof.
  intros [d t]. apply wt_zero. intros c. unfold format_utc_date_time, format_naive_date_time, fmt_date, fmt_time, fmt_year. cbn [date_of time_of].
  assert (P : forall w n, In c (pad w n) -> marks c = 0).
  { intros w n I. pose proof (pad_digits w n) as D. rewrite forallb_forall in D. apply D in I. unfold is_digit in I. unfold marks.
    destruct (N.eqb_spec c DQ) as [->|_]; [discriminate I|]. destruct (N.eqb_spec c BSL) as [->|_]; [discriminate I|easy]. }
  rewrite !in_app_iff. intros I.
  repeat match goal with
  | H : _ \/ _ |- _ => destruct H as [H|H]
  | H : In _ (pad _ _) |- _ => now apply P in H
  end; try (now vm_compute in I; intuition (subst; reflexivity)).
  destruct ((0 <=? year d) && (year d <=? 9999))%Z; [now apply P in I|]. destruct I as [I|I]; [|now apply P in I].
  subst c. now destruct (year d <? 0)%Z.
Qed.
Lemma uuid_marks : forall u, wt marks (fmt_uuid u) = 0.
Proof.
  intros u. unfold fmt_uuid. destruct (hex_spec 32 u) as [_ F]. generalize dependent (hex 32 u). intros h F.
  assert (Z : forall c, In c h -> marks c = 0).
  { intros c I. rewrite Forall_forall in F. apply F in I. unfold marks. unfold DQ, BSL in *. destruct (N.eqb_spec c 34); [lia|]. destruct (N.eqb_spec c 92); lia. }
  assert (A : forall a, wt marks (firstn a h) = 0). { intros a. apply wt_zero. intros c I. apply Z. rewrite <- (firstn_skipn a h). apply in_or_app. now left. }
  assert (B : forall a b, wt marks (firstn a (skipn b h)) = 0).
  { intros a b. apply wt_zero. intros c I. apply Z. rewrite <- (firstn_skipn b h). apply in_or_app. right. rewrite <- (firstn_skipn a (skipn b h)). apply in_or_app. now left. }
  assert (C : forall b, wt marks (skipn b h) = 0).
  { intros b. apply wt_zero. intros c I. apply Z. rewrite <- (firstn_skipn b h). apply in_or_app. now right. }
  cbv zeta. rewrite ?wt_app, ?wt_cons, ?wt_app, ?wt_cons, ?wt_app, ?wt_cons, ?wt_app, ?wt_cons, ?A, ?B, ?C. reflexivity.
Qed.

Section Reprint.
  Context {U : Unicode}.

  Definition ptext (qs : list pparam) : str :=
    concat (map (fun q => match pp_val q with Some v => SEMI :: pp_key q ++ EQUALS :: v | None => SEMI :: pp_key q end) qs).
  Lemma pprop_line_eq : forall p, pprop_line p = Parser.pr_name p ++ ptext (pr_params p) ++ COLON :: pr_val p.
  Proof. reflexivity. Qed.
  Lemma name_marks : forall k, name_ok k -> wt marks k = 0.
  Proof. intros k K. apply name_weight; [easy|apply marks_in]. Qed.
  Lemma value_marks : forall v t rest, value_read (Some v) t rest -> wt marks v <= wt marks t /\ (wt marks v = wt marks t -> v <> [] /\ ~ In SEMI v /\ ~ In COLON v).
  Proof.
    intros v t rest H. inversion H as [? ? N D|? ? N A B _ _|]; subst; [|split; [lia|now intros _]]. rewrite wt_cons, wt_app. change (marks DQ) with 1. split; lia.
  Qed.
  Lemma params_marks : forall qs t rest, params_read qs t rest ->
    wt marks (ptext qs) <= wt marks t /\ (wt marks (ptext qs) = wt marks t -> Forall pp_back qs).
  Proof.
    intros qs t rest P. induction P as [rest N|q qs s t rest Q P [L IH]]; [now split|].
    assert (A : wt marks (ptext [q]) <= wt marks s /\ (wt marks (ptext [q]) = wt marks s -> pp_back q)).
    { unfold ptext. cbn [map concat]. rewrite app_nil_r. destruct Q as [k o w t0 rest0 B K V|k w rest0 B K N1 N2 N3]; cbn [pp_val pp_key].
      - rewrite wt_cons, !wt_app, wt_cons, (name_marks k K). destruct o as [v|].
        + apply value_marks in V as [V1 V2]. rewrite wt_cons, wt_app, wt_cons, (name_marks k K). split; [lia|]. intros E. split; [easy|]. apply V2. lia.
        + rewrite wt_cons, (name_marks k K). split; [lia|]. intros _. now split.
      - rewrite !wt_cons, !wt_app, (name_marks k K). split; [lia|]. intros _. now split. }
    assert (E : ptext (q :: qs) = ptext [q] ++ ptext qs) by (unfold ptext; cbn [map concat]; now rewrite app_nil_r).
    rewrite E, !wt_app. split; [lia|]. intros F. constructor; [apply A; lia|apply IH; lia].
  Qed.
  Lemma decode_marks : forall k qs v, wt marks (decode_value k qs v) <= wt marks v
    /\ (wt marks (decode_value k qs v) = wt marks v -> decode_value k qs v = v /\ (determin_value_type k qs = Some Text -> ~ escapes v)).
  Proof.
    intros k qs v. split; [apply decode_weight; try reflexivity; apply Nat.leb_le; reflexivity|]. unfold decode_value. destruct (determin_value_type k qs) as [[]|] eqn:T; try (split; [easy|discriminate]).
    intros E. assert (N : ~ escapes v) by (intros X; apply unescape_less in X; lia). split; [|easy]. now apply unescape_stable.
  Qed.
  Lemma prop_marks : forall i p r, prop_reads i p r ->
    wt marks (pprop_line p) + wt marks r <= wt marks i /\ (wt marks (pprop_line p) + wt marks r = wt marks i -> pr_back p).
  Proof.
    intros i p r (R & rest & A & H).
    assert (B : wt marks rest = wt marks r).
    { destruct A as [(b & [-> | ->] & ->)|[_ ->]]; [now rewrite wt_app..|easy]. }
    destruct H as [(w & k & qs & t & v & -> & W & K & P & V & ->)|(_ & k & -> & K & _ & ->)].
    - rewrite pprop_line_eq. cbn [Parser.pr_name pr_params pr_val]. destruct (params_marks _ _ _ P) as [P1 P2]. destruct (decode_marks k qs v) as [D1 D2].
      rewrite !wt_app, !wt_cons, !wt_app, (name_marks k K). split; [lia|]. intros E. destruct D2 as [D2 D3]; [lia|].
      split; [|split; [apply P2; lia|]]; cbn [Parser.pr_name pr_params pr_val].
      + split; [easy|]. split; intros [x ->]; apply R; exists w, (x ++ t ++ COLON :: v ++ rest); split; try easy; rewrite <- !app_assoc; [now left|now right].
      + rewrite D2. split; [|exact D3]. destruct V as [(_ & V)|[(_ & V & _)|(_ & V)]]; [easy|..]; intros (a & b & E'); apply V; rewrite E'; apply in_or_app; right; right; now left.
    - rewrite pprop_line_eq. cbn [Parser.pr_name pr_params pr_val ptext map concat app]. rewrite !wt_app. split.
      + change (wt marks [COLON]) with 0. lia.
      + intros _. split; [|split; [constructor|]]; cbn [Parser.pr_name pr_params pr_val].
        * split; [easy|]. split; intros [x ->]; apply R; exists [], (x ++ rest); (split; [constructor|]); rewrite <- !app_assoc; [now left|now right].
        * split; [intros (a & b & E); now destruct a|]. intros _ (a & d & b & E & _). now destruct a.
  Qed.
  Lemma breaks_marks : forall i r, after_breaks i r -> wt marks r = wt marks i.
  Proof.
    intros i r (b & B & -> & _). rewrite wt_app. enough (wt marks b = 0) by lia. clear - B. induction B as [|a b [-> | ->] B IH]; [easy|..]; now rewrite wt_app.
  Qed.
  Lemma item_marks : forall i p r, item_reads i p r ->
    wt marks (pprop_line p) + wt marks r <= wt marks i /\ (wt marks (pprop_line p) + wt marks r = wt marks i -> pr_back p).
  Proof. intros i p r (j & H & B). apply prop_marks in H. apply breaks_marks in B. now rewrite B. Qed.
  Definition sum_marks (ps : list pprop) : nat := list_sum (map (fun p => wt marks (pprop_line p)) ps).
  Fixpoint cmarks (c : pcomp) : nat :=
    match c with mk_pcomp n ps cs => wt marks n + sum_marks ps + list_sum (map cmarks cs) + wt marks n end.
  Definition csum (cs : list pcomp) : nat := list_sum (map cmarks cs).
  Lemma keyword_marks : forall k w, map lower_ascii k = w -> wt marks w = 0 -> wt marks k = 0.
  Proof.
    intros k w <- H. induction k as [|c k IH]; [easy|]. cbn [map] in H. rewrite wt_cons in *.
    assert (marks (lower_ascii c) = marks c).
    { unfold marks, lower_ascii. destruct (is_upper c) eqn:B; [|easy]. unfold is_upper, in_range in B.
      unfold DQ, BSL. destruct (N.eqb_spec c 34); [lia|]. destruct (N.eqb_spec c 92); [lia|]. destruct (N.eqb_spec (c + 32) 34); [lia|]. destruct (N.eqb_spec (c + 32) 92); [lia|easy]. }
    rewrite IH; lia.
  Qed.
  Lemma reads_marks : (forall i c r, comp_reads i c r -> cmarks c + wt marks r <= wt marks i /\ (cmarks c + wt marks r = wt marks i -> pc_lines c))
    /\ (forall n i ps cs r, body_reads n i ps cs r -> name_ok n -> sum_marks ps + csum cs + wt marks r <= wt marks i
        /\ (sum_marks ps + csum cs + wt marks r = wt marks i -> Forall pr_back ps /\ Forall pc_lines cs))
    /\ (forall i, comp_stuck i -> True) /\ (forall i, body_stuck i -> True).
  Proof.
    apply reads_mutind; try (intros; exact I).
    - intros kb n i j ps cs r B K _ A _ IH. destruct (IH K) as [L F]. apply breaks_marks in A. cbn [cmarks]. fold (csum cs).
      rewrite !wt_app, (name_marks n K), (keyword_marks kb _ B eq_refl). split; [lia|]. intros E. destruct F as [F G]; [lia|]. now constructor.
    - intros n ke i r B A K. apply breaks_marks in A. rewrite !wt_app, (name_marks n K), (keyword_marks ke _ B eq_refl). cbn. split; [lia|]. now split.
    - intros n i c j ps cs r _ [L1 F1] _ IH K. destruct (IH K) as [L2 F2]. unfold csum. cbn [map]. change (list_sum (?a :: ?l)) with (a + list_sum l). fold (csum cs).
      split; [lia|]. intros E. destruct F2 as [F2 G2]; [lia|]. split; [easy|]. constructor; [apply F1; lia|easy].
    - intros n i p j ps cs r _ _ H _ _ IH K. destruct (IH K) as [L2 F2]. apply item_marks in H as [L1 F1]. unfold sum_marks. cbn [map]. change (list_sum (?a :: ?l)) with (a + list_sum l). fold (sum_marks ps).
      split; [lia|]. intros E. destruct F2 as [F2 G2]; [lia|]. split; [|easy]. constructor; [apply F1; lia|easy].
    - intros n i p j ps cs r _ _ H _ IH K. destruct (IH K) as [L2 F2]. apply item_marks in H as [L1 F1]. unfold sum_marks. cbn [map]. change (list_sum (?a :: ?l)) with (a + list_sum l). fold (sum_marks ps).
      split; [lia|]. intros E. destruct F2 as [F2 G2]; [lia|]. split; [|easy]. constructor; [apply F1; lia|easy].
  Qed.

  (** ** Writing *)

  Lemma props_marks : forall ps s, pprops_write ps = Ret s -> wt marks s = sum_marks ps.
  Proof.
    induction ps as [|p ps IH]; intros s W; cbn [pprops_write] in W; [now injection W as <-|].
    destruct (pprop_write p) as [a| |] eqn:E1; cbn [obind] in W; try easy. destruct (pprops_write ps) as [b| |] eqn:E2; cbn [obind] in W; try easy.
    injection W as <-. rewrite wt_app, (IH b eq_refl). apply line_marks in E1. rewrite E1. reflexivity.
  Qed.
  Lemma extra_marks : forall e k ps n x m, like_extra e k ps n = (x, m) -> wt marks x = 0.
  Proof.
    intros e k ps n x m. unfold like_extra. destruct (str_eqb _ _); [|now intros [= <- _]].
    assert (A : forall w d, wt marks (lit w) = 0 -> wt marks (lit w ++ format_utc_date_time d ++ crlf) = 0).
    { intros w d W. rewrite !wt_app, W, stamp_marks. reflexivity. }
    assert (B : forall w d, wt marks (lit w) = 0 -> wt marks (lit w ++ fmt_uuid d ++ crlf) = 0).
    { intros w d W. rewrite !wt_app, W, uuid_marks. reflexivity. }
    destruct (existsb _ ps) at 1; destruct (existsb _ ps); intros H; apply (f_equal fst) in H; cbn [fst] in H; rewrite <- H, wt_app; clear H.
    - reflexivity.
    - rewrite B; reflexivity.
    - rewrite A; reflexivity.
    - rewrite A, B; reflexivity.
  Qed.
  Lemma comp_marks : forall c e n s m, pcomp_write e c n = Ret (s, m) -> wt marks s = cmarks c.
  Proof.
    induction c as [k ps cs IH] using pcomp_deep. intros e n s m W. rewrite pcomp_write_eq in W.
    destruct (like_extra e k ps n) as [x n1] eqn:X. apply extra_marks in X.
    destruct (pprops_write ps) as [pt| |] eqn:P; cbn [obind] in W; try easy. apply props_marks in P.
    destruct (pcomps_write e cs n1) as [[ct n2]| |] eqn:C; cbn [obind] in W; try easy.
    assert (D : wt marks ct = csum cs).
    { clear - IH C. revert n1 ct n2 C. induction IH as [|c cs H _ IHl]; intros n1 ct n2 C; [now injection C as <- <-|].
      change (pcomps_write e (c :: cs) n1) with (obind (pcomp_write e c n1) (fun '(s, n') => obind (pcomps_write e cs n') (fun '(t, n'') => Ret (s ++ t, n'')))) in C.
      destruct (pcomp_write e c n1) as [[a m]| |] eqn:Q; cbn [obind] in C; try easy.
      destruct (pcomps_write e cs m) as [[b m2]| |] eqn:Q2; cbn [obind] in C; try easy. injection C as <- <-.
      apply H in Q. apply IHl in Q2. rewrite wt_app, Q, Q2. reflexivity. }
    assert (s = lit "BEGIN:" ++ k ++ crlf ++ x ++ pt ++ ct ++ lit "END:" ++ k ++ crlf) as ->
      by (pose proof (f_equal (fun o => match o with Ret (y, _) => y | _ => [] end) W) as W2; symmetry; exact W2).
    cbn [cmarks]. fold (csum cs). rewrite !wt_app, X, P, D.
    change (wt marks (lit "BEGIN:")) with 0. change (wt marks (lit "END:")) with 0. change (wt marks crlf) with 0. lia.
  Qed.
  Theorem comp_needs : forall e c n s m r, pcomp_write e c n = Ret (s, m) -> text_reads (unfold s) c r -> pc_lines c.
  Proof.
    intros e c n s m r W (j & B & H). apply comp_marks in W. apply breaks_marks in B. rewrite unfold_marks in B.
    apply reads_marks in H as [L F]. apply F. lia.
  Qed.

  (** ** What is read *)

  Lemma back_ok : forall p, pr_back p -> pr_tame p -> pr_ok p.
  Proof.
    intros p ((K & E & B) & P & V & T) (E' & B' & P' & M). split; [|split; [|easy]]; [split; [easy|split; [easy|split; [easy|split; [easy|easy]]]]|].
    clear - P P'. induction P as [|q qs [N H] _ IH]; [constructor|]. inversion P'; subst. constructor; [|now apply IH]. split; [easy|].
    destruct (pp_val q) as [v|]; [|easy]. tauto.
  Qed.
  Lemma stamp_ok : forall e n, pr_ok (stamp_line e n).
  Proof.
    intros e n. pose proof (stamp_no_lf (now_at e n)) as N. repeat apply conj; cbn [stamp_line Parser.pr_name pr_params pr_val].
    - apply name_ok_spec. reflexivity.
    - intros [r E]. discriminate E.
    - intros [r E]. discriminate E.
    - discriminate.
    - discriminate.
    - constructor.
    - now apply mark_free_no_lf.
    - intros (a & b & E). apply N. rewrite E. apply in_or_app. right. right. now left.
    - intros T. vm_compute in T. discriminate T.
  Qed.
  Lemma uid_ok : forall e n, pr_ok (uid_line e n).
  Proof.
    intros e n. destruct (uuid_spec (uuid_at e n)) as [_ F]. rewrite Forall_forall in F.
    assert (N : ~ In LF (fmt_uuid (uuid_at e n))) by (intros I; apply F in I; destruct I as (_ & _ & _ & _ & I); now apply I).
    repeat apply conj; cbn [uid_line Parser.pr_name pr_params pr_val].
    - apply name_ok_spec. reflexivity.
    - intros [r E]. discriminate E.
    - intros [r E]. discriminate E.
    - discriminate.
    - discriminate.
    - constructor.
    - now apply mark_free_no_lf.
    - intros (a & b & E). apply N. rewrite E. apply in_or_app. right. right. now left.
    - intros _ (a & d & b & E & _). assert (I : In BSL (fmt_uuid (uuid_at e n))) by (rewrite E; apply in_or_app; right; now left).
      apply F in I. destruct I as (_ & I & _). now apply I.
  Qed.
  Lemma line_unfold : forall w v r, ~ In LF w -> ~ In LF v -> solid r -> unfold (w ++ v ++ [CR; LF] ++ r) = w ++ v ++ [CR; LF] ++ unfold r.
  Proof.
    intros w v r Wl V R. rewrite app_assoc. cbn [app]. rewrite unfold_app_cr.
    - rewrite unfold_crlf_keep by easy. now rewrite <- app_assoc.
    - apply mark_free_no_lf. rewrite in_app_iff. now intros [I|I].
  Qed.
  Definition ztexts (ps : list pprop) : str := concat (map (fun p => wline_text (zline p) ++ [CR; LF]) ps).
  Lemma ztexts_app : forall a b, ztexts (a ++ b) = ztexts a ++ ztexts b.
  Proof. intros. unfold ztexts. now rewrite map_app, concat_app. Qed.
  Lemma has_name : forall k (ps : list pprop), existsb (fun p => str_eqb (Parser.pr_name p) k) ps = true <-> In k (map Parser.pr_name ps).
  Proof.
    intros k ps. rewrite existsb_exists, in_map_iff. split; intros (p & A & B); exists p; rewrite ?str_eqb_eq in *; easy.
  Qed.
  Lemma has_no_name : forall k (ps : list pprop), existsb (fun p => str_eqb (Parser.pr_name p) k) ps = false <-> ~ In k (map Parser.pr_name ps).
  Proof. intros k ps. rewrite <- has_name. destruct (existsb _ ps); split; easy. Qed.
  Lemma extra_unfold : forall e k ps n x m, like_extra e k ps n = (x, m) -> exists a b,
    ((to_lowercase k = lit "calendar" /\ ~ In (lit "DTSTAMP") (map Parser.pr_name ps) -> exists m, a = [stamp_line e m])
     /\ (to_lowercase k <> lit "calendar" \/ In (lit "DTSTAMP") (map Parser.pr_name ps) -> a = []))
    /\ ((to_lowercase k = lit "calendar" /\ ~ In (lit "UID") (map Parser.pr_name ps) -> exists m, b = [uid_line e m])
     /\ (to_lowercase k <> lit "calendar" \/ In (lit "UID") (map Parser.pr_name ps) -> b = []))
    /\ Forall pr_ok a /\ Forall pr_ok b
    /\ forall r, solid r -> unfold (x ++ r) = ztexts (a ++ b) ++ unfold r /\ solid (x ++ r).
  Proof.
    intros e k ps n x m. unfold like_extra. destruct (str_eqb (to_lowercase k) (lit "calendar")) eqn:L.
    2:{ apply str_eqb_neq in L. intros [= <- _]. exists [], []. repeat apply conj; try easy; intros; constructor || easy. }
    apply str_eqb_eq in L. cbv zeta.
    assert (SA : forall j r, solid r -> unfold ((lit "DTSTAMP:" ++ format_utc_date_time (now_at e j) ++ crlf) ++ r) = ztexts [stamp_line e j] ++ unfold r
      /\ solid ((lit "DTSTAMP:" ++ format_utc_date_time (now_at e j) ++ crlf) ++ r)).
    { intros j r R. split; [|cbn; now apply blank_not]. rewrite <- !app_assoc. change crlf with [CR; LF]. rewrite line_unfold; [|intros I; vm_compute in I; intuition discriminate|apply stamp_no_lf|easy].
      unfold ztexts. cbn [map concat]. rewrite zline_text, app_nil_r, <- app_assoc. unfold pprop_line, stamp_line. cbn [Parser.pr_name pr_params pr_val map concat app]. rewrite <- app_assoc. reflexivity. }
    assert (SB : forall j r, solid r -> unfold ((lit "UID:" ++ fmt_uuid (uuid_at e j) ++ crlf) ++ r) = ztexts [uid_line e j] ++ unfold r
      /\ solid ((lit "UID:" ++ fmt_uuid (uuid_at e j) ++ crlf) ++ r)).
    { intros j r R. split; [|cbn; now apply blank_not]. rewrite <- !app_assoc. change crlf with [CR; LF].
      assert (N : ~ In LF (fmt_uuid (uuid_at e j))).
      { destruct (uuid_spec (uuid_at e j)) as [_ F]. rewrite Forall_forall in F. intros I; apply F in I; destruct I as (_ & _ & _ & _ & I); now apply I. }
      rewrite line_unfold; [|intros I; vm_compute in I; intuition discriminate|easy|easy].
      unfold ztexts. cbn [map concat]. rewrite zline_text, app_nil_r, <- app_assoc. unfold pprop_line, uid_line. cbn [Parser.pr_name pr_params pr_val map concat app]. rewrite <- app_assoc. reflexivity. }
    assert (OA : forall j, Forall pr_ok [stamp_line e j]) by (intros; constructor; [apply stamp_ok|constructor]).
    assert (OB : forall j, Forall pr_ok [uid_line e j]) by (intros; constructor; [apply uid_ok|constructor]).
    destruct (existsb (fun p => str_eqb (Parser.pr_name p) (lit "DTSTAMP")) ps) eqn:A; [apply has_name in A|apply has_no_name in A];
      (destruct (existsb (fun p => str_eqb (Parser.pr_name p) (lit "UID")) ps) eqn:B; [apply has_name in B|apply has_no_name in B]);
      intros H; apply (f_equal fst) in H; cbn [fst] in H; rewrite <- H; clear H.
    - exists [], []. repeat apply conj; try easy; tauto.
    - exists [], [uid_line e n]. split; [split; tauto|]. split; [split; [eauto|tauto]|]. split; [constructor|]. split; [easy|]. intros r R. now apply SB.
    - exists [stamp_line e n], []. split; [split; [eauto|tauto]|]. split; [split; tauto|]. split; [easy|]. split; [constructor|]. intros r R. rewrite app_nil_r. now apply SA.
    - exists [stamp_line e n], [uid_line e (S n)]. split; [split; [eauto|tauto]|]. split; [split; [eauto|tauto]|]. split; [easy|]. split; [easy|]. intros r R. rewrite <- app_assoc.
      destruct (SB (S n) r R) as [X1 X2]. destruct (SA n _ X2) as [Y1 Y2]. split; [|exact Y2]. rewrite Y1, X1, ztexts_app, <- app_assoc. reflexivity.
  Qed.
  Inductive pc_fit : pcomp -> Prop :=
  | Pc_fit : forall n ps cs, name_ok n -> Forall pr_ok ps -> Forall pc_fit cs -> pc_fit (mk_pcomp n ps cs).
  Lemma fit_tree : forall c, pc_fit c -> wtree_ok CrLf (ztree c) /\ wtree_read (ztree c) = c.
  Proof.
    induction c as [k ps cs IH] using pcomp_deep. intros O. inversion O as [? ? ? K P C]; subst. cbn [ztree]. split.
    - constructor; [easy|]. apply Forall_app. split; apply Forall_map.
      + eapply Forall_impl; [|exact P]. intros p H. constructor. now apply zline_ok.
      + clear O. induction IH as [|c cs H _ IH]; [constructor|]. inversion C; subst. constructor; [|now apply IH]. constructor. now apply H.
    - cbn [wtree_read]. rewrite !flat_map_app. f_equal.
      + transitivity (ps ++ []); [|apply app_nil_r]. f_equal.
        * clear - P. induction P as [|p ps H _ IH]; [easy|]. cbn [map flat_map app]. now rewrite IH, zline_read.
        * clear. induction cs as [|p cs IH]; [easy|]. exact IH.
      + transitivity ([] ++ cs); [|easy]. f_equal.
        * clear. induction ps as [|p ps IH]; [easy|]. exact IH.
        * clear - IH C. revert C. induction IH as [|c cs H _ IH]; intros C; [easy|]. inversion C; subst. cbn [map flat_map app].
          rewrite IH by easy. f_equal. now apply H.
  Qed.
  Lemma stamped_unfold : forall c, pc_lines c -> pc_tame c -> forall e n s m, pcomp_write e c n = Ret (s, m) -> exists d, stamped e c d /\ pc_fit d
    /\ forall r, solid r -> unfold (s ++ r) = render CrLf (ztree d) ++ unfold r /\ solid (s ++ r).
  Proof.
    induction c as [k ps cs IH] using pcomp_deep. intros O T e n s m W. inversion O as [? ? ? K P C]; subst. inversion T as [? ? ? TP TC]; subst.
    rewrite pcomp_write_eq in W. destruct (like_extra e k ps n) as [x n1] eqn:X. apply extra_unfold in X as (a & b & [A1 A2] & [B1 B2] & Fa & Fb & X).
    destruct (pprops_write ps) as [pt| |] eqn:E1; cbn [obind] in W; try easy.
    destruct (pcomps_write e cs n1) as [[ct n2]| |] eqn:E2; cbn [obind] in W; try easy.
    assert (Es : s = lit "BEGIN:" ++ k ++ [CR; LF] ++ x ++ pt ++ ct ++ lit "END:" ++ k ++ [CR; LF]) by (pose proof (f_equal (fun o => match o with Ret (x, _) => x | _ => [] end) W) as W2; symmetry; exact W2). clear W.
    assert (Y : exists ds, Forall2 (stamped e) cs ds /\ Forall pc_fit ds /\ forall r, solid r ->
      unfold (ct ++ r) = concat (map (fun c => render CrLf (ztree c)) ds) ++ unfold r /\ solid (ct ++ r)).
    { clear - IH C TC E2. revert n1 ct n2 E2 C TC. induction IH as [|c cs H _ IH]; intros n ct n2 E2 C TC.
      - injection E2 as <- <-. exists []. repeat apply conj; try constructor; easy.
      - inversion C; inversion TC; subst.
        change (pcomps_write e (c :: cs) n) with (obind (pcomp_write e c n) (fun '(s, n') => obind (pcomps_write e cs n') (fun '(t, n'') => Ret (s ++ t, n'')))) in E2.
        destruct (pcomp_write e c n) as [[a m]| |] eqn:Q; cbn [obind] in E2; try easy.
        destruct (pcomps_write e cs m) as [[b m2]| |] eqn:Q2; cbn [obind] in E2; try easy. injection E2 as <- <-.
        destruct (IH m b m2 Q2 ltac:(assumption) ltac:(assumption)) as (ds & D1 & D2 & D3). destruct (H ltac:(assumption) ltac:(assumption) e n a m Q) as (d & J1 & J2 & J3).
        exists (d :: ds). split; [now constructor|]. split; [now constructor|]. intros r R. rewrite <- app_assoc. destruct (D3 r R) as [I1 I2].
        destruct (J3 _ I2) as [I3 I4]. split; [|easy]. rewrite I3, I1. cbn [map concat]. now rewrite <- !app_assoc. }
    destruct Y as (ds & D1 & D2 & D3). exists (mk_pcomp k (a ++ b ++ ps) ds).
    assert (PO : Forall pr_ok ps) by (apply Forall_forall; intros p I; rewrite Forall_forall in *; apply back_ok; auto).
    split; [now constructor|]. split; [constructor; [easy| |easy]; apply Forall_app; split; [easy|]; apply Forall_app; now split|].
    intros r R. assert (E : solid (lit "END:" ++ k ++ [CR; LF] ++ r)) by (cbn; now apply blank_not).
    destruct (D3 _ E) as [X1 X2]. destruct (zlines_unfold ps pt _ PO E1 X2) as [Y1 Y2]. destruct (X _ Y2) as [Z1 Z2].
    split; [|subst s; cbn; now apply blank_not].
    assert (Z : s ++ r = lit "BEGIN:" ++ k ++ [CR; LF] ++ x ++ pt ++ ct ++ lit "END:" ++ k ++ [CR; LF] ++ r) by (rewrite Es; now rewrite <- !app_assoc).
    rewrite Z, render_ztree.
    rewrite begin_unfold; [|intros I; vm_compute in I; intuition discriminate|easy|easy].
    rewrite Z1, Y1, X1. rewrite begin_unfold; [|intros I; vm_compute in I; intuition discriminate|easy|easy].
    fold (ztexts ps). fold (ztexts (a ++ b ++ ps)). rewrite (app_assoc a b ps), (ztexts_app (a ++ b) ps). now rewrite <- !app_assoc.
  Qed.
  Lemma stamped_same : forall e c, stamped e c c <-> pc_stamps c.
  Proof.
    intros e. induction c as [k ps cs IH] using pcomp_deep. split.
    - intros H. inversion H as [? ? ? a b cs' A1 A2 B1 B2 F E1 E2]; subst.
      assert (L : length a + length b = 0) by (match goal with E : a ++ b ++ ps = ps |- _ => apply (f_equal (@length pprop)) in E; rewrite !app_length in E; lia end).
      destruct a; [|discriminate L]. destruct b; [|discriminate L]. constructor.
      + intros Lc. split.
        * destruct (in_dec str_eq_dec (lit "DTSTAMP") (map Parser.pr_name ps)) as [I|I]; [easy|]. destruct (A1 (conj Lc I)) as [m M]. discriminate M.
        * destruct (in_dec str_eq_dec (lit "UID") (map Parser.pr_name ps)) as [I|I]; [easy|]. destruct (B1 (conj Lc I)) as [m M]. discriminate M.
      + clear - IH F. induction IH as [|c cs H _ IH]; [constructor|]. inversion F; subst. constructor; [now apply H|now apply IH].
    - intros H. inversion H as [? ? ? L F]; subst.
      assert (Dec : to_lowercase k = lit "calendar" \/ to_lowercase k <> lit "calendar") by (destruct (str_eq_dec (to_lowercase k) (lit "calendar")); auto).
      change ps with ([] ++ [] ++ ps) at 2. constructor; try easy; try (intros [X Y]; destruct (L X); tauto).
      clear - IH F. induction IH as [|c cs H _ IH]; [constructor|]. inversion F; subst. constructor; [now apply H|now apply IH].
  Qed.
  Lemma stamped_det : forall e c d, pc_stamps c -> stamped e c d -> d = c.
  Proof.
    intros e. induction c as [k ps cs IH] using pcomp_deep. intros d H S. inversion H as [? ? ? L F]; subst. inversion S as [? ? ? a b cs' A1 A2 B1 B2 G]; subst.
    assert (a = [] /\ b = []) as [-> ->].
    { destruct (str_eq_dec (to_lowercase k) (lit "calendar")) as [Lc|Lc]; [|split; [apply A2|apply B2]; now left]. destruct (L Lc). split; [apply A2|apply B2]; now right. }
    cbn [app]. f_equal. clear - IH F G. revert cs' G. induction IH as [|c cs H _ IH]; intros ds G; inversion G; subst; [easy|]. inversion F; subst.
    f_equal; [now apply H|now apply IH].
  Qed.
  Lemma text_read_fit : forall s d, (forall r, solid r -> unfold (s ++ r) = render CrLf (ztree d) ++ unfold r /\ solid (s ++ r)) -> pc_fit d ->
    read_component (unfold s) = Ok d /\ (pc_name d = lit "VCALENDAR" -> read_calendar (unfold s) = Ok (mk_pcal (pc_props d) (pc_comps d))).
  Proof.
    intros s d X O. destruct (X [] I) as [Y _]. rewrite app_nil_r in Y. change (unfold []) with (@nil char) in Y. rewrite app_nil_r in Y. rewrite Y.
    destruct (fit_tree _ O) as [Z1 Z2]. destruct (document_read CrLf (ztree d) (render CrLf (ztree d)) []) as (_ & _ & Q1 & Q2); try easy.
    - apply render_text.
    - constructor.
    - cbn [app] in Q1, Q2. rewrite Z2 in *. now split.
  Qed.

  (** ** Both directions *)

  Theorem component_read : forall e c n s m, pcomp_write e c n = Ret (s, m) -> pc_tame c -> pc_lines c ->
    exists d, stamped e c d /\ read_component (unfold s) = Ok d.
  Proof.
    intros e c n s m W T L. destruct (stamped_unfold c L T e n s m W) as (d & S & F & X). exists d. split; [easy|]. now apply text_read_fit.
  Qed.
  Theorem component_back : forall e c n s m, pcomp_write e c n = Ret (s, m) ->
    (read_component (unfold s) = Ok c -> pc_lines c) /\ (pc_tame c -> (read_component (unfold s) = Ok c <-> pc_back c)).
  Proof.
    intros e c n s m W. assert (A : read_component (unfold s) = Ok c -> pc_lines c).
    { intros R. apply read_component_exact in R as [r R]. eapply comp_needs; eauto. }
    split; [exact A|]. intros T. split.
    - intros R. specialize (A R). split; [easy|]. destruct (component_read e c n s m W T A) as (d & S & R'). rewrite R in R'. injection R' as <-. now apply (stamped_same e).
    - intros [L S]. destruct (component_read e c n s m W T L) as (d & S' & R'). now rewrite (stamped_det e c d S S') in R'.
  Qed.
  Lemma cal_text : forall e c s, pcal_write e c = Ret s -> exists m, pcomp_write e (mk_pcomp (lit "VCALENDAR") (pcal_props c) (pcal_comps c)) 0 = Ret (s, m).
  Proof. intros e c s W. unfold pcal_write in W. destruct (pcomp_write _ _ 0) as [[t m]| |]; cbn [obind] in W; try easy. injection W as ->. eauto. Qed.
  Lemma names_same : forall a b x y, name_ok a -> name_ok b -> name_ends x -> name_ends y -> a ++ x = b ++ y -> a = b.
  Proof.
    induction a as [|c a IH]; intros b x y A B X Y E.
    - destruct b as [|d b]; [easy|]. exfalso. inversion B; subst. now apply (X d (b ++ y)).
    - destruct b as [|d b]; [exfalso; inversion A; subst; now apply (Y c (a ++ x))|]. injection E as -> E. f_equal.
      inversion A; inversion B; subst. now apply (IH b x y).
  Qed.
  Lemma other_root : forall e d s m c r, pcomp_write e (mk_pcomp (lit "VCALENDAR") [] [d]) 0 = Ret (s, m) -> text_reads (unfold s) c r -> pc_name c = lit "VCALENDAR".
  Proof.
    intros e d s m c r W (j & (b & B & J & _) & R). rewrite pcomp_write_eq in W. destruct (like_extra e (lit "VCALENDAR") [] 0) as [x n1] eqn:X.
    assert (x = [] /\ n1 = 0) as [-> ->] by (unfold like_extra in X; change (to_lowercase (lit "VCALENDAR")) with (lit "vcalendar") in X; cbn [str_eqb] in X; vm_compute in X; injection X; auto).
    cbn [pprops_write obind] in W. change (pcomps_write e [d] 0) with (obind (pcomp_write e d 0) (fun '(s, n') => Ret (s ++ [], n'))) in W.
    destruct (pcomp_write e d 0) as [[t m']| |] eqn:D; cbn [obind] in W; try easy.
    assert (Es : s = lit "BEGIN:" ++ lit "VCALENDAR" ++ [CR; LF] ++ (t ++ []) ++ lit "END:" ++ lit "VCALENDAR" ++ [CR; LF]) by (pose proof (f_equal (fun o => match o with Ret (x, _) => x | _ => [] end) W) as W2; symmetry; exact W2). clear W.
    assert (S : solid ((t ++ []) ++ lit "END:" ++ lit "VCALENDAR" ++ [CR; LF])).
    { destruct d as [k ps cs]. rewrite pcomp_write_eq in D. destruct (like_extra e k ps 0) as [x n1]. destruct (pprops_write ps) as [pt| |]; cbn [obind] in D; try easy.
      destruct (pcomps_write e cs n1) as [[ct n2]| |]; cbn [obind] in D; try easy. apply (f_equal (fun o => match o with Ret (x, _) => x | _ => [] end)) in D. rewrite <- D. cbn. now apply blank_not. }
    assert (V : name_ok (lit "VCALENDAR")) by (apply name_ok_spec; reflexivity).
    rewrite Es, begin_unfold in J; [|intros I; vm_compute in I; intuition discriminate|easy|easy].
    generalize dependent (unfold ((t ++ []) ++ lit "END:" ++ lit "VCALENDAR" ++ [CR; LF])). intros u J.
    assert (b = []) as ->.
    { destruct B as [|y b [-> | ->] B]; [easy|..]; discriminate J. }
    cbn [app] in J. inversion R as [kb n i j' ps cs r' KB NK NE AB BR E1 E2]; subst. cbn [pc_name].
    assert (LK : length kb = 6) by (apply (f_equal (@length N)) in KB; now rewrite map_length in KB).
    assert (EN : n ++ i = lit "VCALENDAR" ++ [CR; LF] ++ u).
    { apply (f_equal (skipn 6)) in E1. rewrite skipn_app, LK in E1. rewrite Nat.sub_diag, skipn_all2 in E1 by lia. cbn [skipn app] in E1. exact E1. }
    apply (names_same n (lit "VCALENDAR") i ([CR; LF] ++ u)); try easy.
    intros c y E K. cbn [app] in E. injection E as <- _. destruct K as [K|K]; [vm_compute in K; intuition discriminate|discriminate K].
  Qed.
  Theorem calendar_needs : forall e c s, pcal_write e c = Ret s -> read_calendar (unfold s) = Ok c -> Forall pr_back (pcal_props c) /\ Forall pc_lines (pcal_comps c).
  Proof.
    intros e c s W R. apply cal_text in W as [m W]. apply read_calendar_exact in R as [(ps & cs & T & ->)|[(d & T & N & ->)|[_ ->]]]; cbn [pcal_props pcal_comps] in *.
    - pose proof (comp_needs _ _ _ _ _ _ W T) as L. inversion L; subst. now split.
    - exfalso. apply N. eapply other_root; eauto.
    - split; constructor.
  Qed.
  Theorem calendar_read : forall e c s, pcal_write e c = Ret s -> Forall pr_tame (pcal_props c) -> Forall pc_tame (pcal_comps c) ->
    Forall pr_back (pcal_props c) -> Forall pc_lines (pcal_comps c) ->
    exists ds, Forall2 (stamped e) (pcal_comps c) ds /\ read_calendar (unfold s) = Ok (mk_pcal (pcal_props c) ds).
  Proof.
    intros e [ps cs] s W T1 T2 P C. apply cal_text in W as [m W]. cbn [pcal_props pcal_comps] in *.
    assert (V : name_ok (lit "VCALENDAR")) by (apply name_ok_spec; reflexivity).
    destruct (stamped_unfold (mk_pcomp (lit "VCALENDAR") ps cs) ltac:(now constructor) ltac:(now constructor) e 0 s m W) as (d & S & F & X).
    inversion S as [? ? ? a b ds A1 A2 B1 B2 G]; subst. exists ds. split; [easy|]. apply text_read_fit in X as [_ X]; [|easy]. cbn [pc_name pc_props pc_comps] in X.
    rewrite (X eq_refl). assert (Lc : to_lowercase (lit "VCALENDAR") <> lit "calendar") by (intros Q; vm_compute in Q; discriminate Q).
    rewrite (A2 (or_introl Lc)), (B2 (or_introl Lc)). easy.
  Qed.
  Theorem calendar_back : forall e c s, pcal_write e c = Ret s -> Forall pr_tame (pcal_props c) -> Forall pc_tame (pcal_comps c) ->
    (read_calendar (unfold s) = Ok c <-> Forall pr_back (pcal_props c) /\ Forall pc_back (pcal_comps c)).
  Proof.
    intros e c s W T1 T2. split.
    - intros R. destruct (calendar_needs e c s W R) as [P C]. split; [easy|]. destruct (calendar_read e c s W T1 T2 P C) as (ds & F & R').
      rewrite R in R'. destruct c as [ps cs]. injection R' as E. cbn [pcal_comps] in *. subst ds. clear - C F.
      induction C as [|c cs H _ IH]; [constructor|]. inversion F; subst. constructor; [|now apply IH]. split; [easy|]. now apply (stamped_same e).
    - intros [P C]. assert (C' : Forall pc_lines (pcal_comps c)) by (eapply Forall_impl; [|exact C]; now intros d []).
      destruct (calendar_read e c s W T1 T2 P C') as (ds & F & R'). rewrite R'. destruct c as [ps cs]. cbn [pcal_props pcal_comps] in *. do 2 f_equal.
      clear - C F. revert ds F. induction C as [|c cs [_ H] _ IH]; intros ds F; inversion F; subst; [easy|]. f_equal; [now apply (stamped_det e)|now apply IH].
  Qed.

  (** ** Single properties *)

  Definition breaking (c : N) : nat := if (c =? LF)%N then 1 else if (c =? BSL)%N then 1 else 0.
  Lemma breaking_in : forall c, breaking c <> 0 -> In c [LF; DQ; BSL].
  Proof. intros c. unfold breaking. destruct (N.eqb_spec c LF) as [->|_]; [cbn; auto|]. destruct (N.eqb_spec c BSL) as [->|_]; [cbn; auto|easy]. Qed.
  Lemma params_breaking : forall qs t rest, params_read qs t rest -> wt breaking (ptext qs) <= wt breaking t.
  Proof.
    intros qs t rest P. induction P as [rest N|q qs s t rest Q P IH]; [easy|].
    assert (A : wt breaking (ptext [q]) <= wt breaking s).
    { assert (NB : forall k, name_ok k -> wt breaking k = 0) by (intros; apply name_weight; [easy|apply breaking_in]).
      unfold ptext. cbn [map concat]. rewrite app_nil_r. destruct Q as [k o w t0 rest0 B K V|k w rest0 B K N1 N2 N3]; cbn [pp_val pp_key].
      - rewrite wt_cons, !wt_app, wt_cons, (NB k K). destruct o as [v|].
        + apply (value_weight breaking) in V. rewrite wt_cons, wt_app, wt_cons, (NB k K). lia.
        + rewrite wt_cons, (NB k K). lia.
      - rewrite !wt_cons, !wt_app, (NB k K). lia. }
    assert (E : ptext (q :: qs) = ptext [q] ++ ptext qs) by (unfold ptext; cbn [map concat]; now rewrite app_nil_r).
    rewrite E, !wt_app. lia.
  Qed.
  Lemma ptext_texts : forall qs ts, Forall2 pparam_written qs ts -> concat ts = ptext qs.
  Proof. intros qs ts F. induction F as [|q t qs ts H _ IH]; [easy|]. unfold ptext in *. cbn [map concat]. rewrite IH. now destruct H. Qed.
  Lemma ptext_head : forall qs r, exists c y, ptext qs ++ COLON :: r = c :: y /\ In c [SEMI; COLON].
  Proof. intros [|[k [v|]] qs] r; eexists _, _; (split; [reflexivity|]); cbn; auto. Qed.
  Lemma ptext_end : forall qs r, param_end (ptext qs ++ COLON :: r).
  Proof. intros [|[k [v|]] qs] r; [right; right|right; left..]; eexists; reflexivity. Qed.
  Lemma open_read : forall qs ts r, Forall2 pparam_written qs ts -> Forall pp_back qs -> params_open qs ts (COLON :: r) ->
    params_read qs (concat ts) (COLON :: r).
  Proof.
    intros qs ts r F. induction F as [|q t qs ts H F IH]; intros B O.
    - constructor. now intros [x E].
    - inversion B as [|? ? [K V] B']; subst. inversion O as [|? ? ? ? ? _ Q O']; subst. cbn [concat]. constructor; [|now apply IH].
      pose proof (ptext_end qs r) as PE. rewrite <- (ptext_texts qs ts F) in PE.
      destruct H as [k v|k]; cbn [pp_key pp_val] in *.
      + apply (pr_value k (Some v) [] v); [constructor|easy|]. constructor; try easy. intros X. apply looks_quoted_spec in X. now apply (Q v).
      + apply (SpecItems.pr_name k []); [constructor|easy| | |].
        * intros c y E [I|I]; destruct PE as [X|[[y' X]|[y' X]]]; rewrite X in E; try discriminate E; injection E as <- _; try discriminate I; vm_compute in I; intuition discriminate.
        * intros [y E]. destruct PE as [X|[[y' X]|[y' X]]]; rewrite X in E; discriminate E.
        * intros _. split; intros [y E]; destruct PE as [X|[[y' X]|[y' X]]]; rewrite X in E; discriminate E.
  Qed.
  Lemma read_open : forall qs t rest, params_read qs t rest -> forall ts r, Forall2 pparam_written qs ts -> Forall pp_back qs ->
    wt marks (ptext qs) = wt marks t -> concat ts ++ COLON :: r = t ++ rest -> params_open qs ts (COLON :: r) /\ t = concat ts.
  Proof.
    intros qs t rest P. induction P as [rest N|q qs s t rest Q P IH]; intros ts r F B W E; inversion F as [|? t1 ? ts1 H F1]; subst.
    - split; [constructor|easy].
    - inversion B as [|? ? [K V] B1]; subst.
      assert (Ep : ptext (q :: qs) = ptext [q] ++ ptext qs) by (unfold ptext; cbn [map concat]; now rewrite app_nil_r).
      assert (Eq : ptext [q] = t1) by (rewrite <- (ptext_texts [q] [t1]); [cbn; apply app_nil_r|repeat constructor; easy]).
      pose proof (proj1 (params_marks _ _ _ P)) as L2.
      assert (P1 : params_read [q] s (t ++ rest) \/ has_prefix [SEMI] (t ++ rest)).
      { destruct (starts_with [SEMI] (t ++ rest)) eqn:S; [right; now apply starts_with_spec in S|left]. rewrite <- (app_nil_r s). constructor; [exact Q|].
        constructor. intros S'. apply starts_with_spec in S'. congruence. }
      assert (L1 : wt marks t1 <= wt marks s).
      { rewrite <- Eq. unfold ptext. cbn [map concat]. rewrite app_nil_r. destruct Q as [k o w t0 rest0 Bw Kk Vv|k w rest0 Bw Kk N1 N2 N3]; cbn [pp_val pp_key].
        - rewrite wt_cons, !wt_app, wt_cons, (name_marks k Kk). destruct o as [v|].
          + apply value_marks in Vv as [V1 _]. rewrite wt_cons, wt_app, wt_cons, (name_marks k Kk). lia.
          + rewrite wt_cons, (name_marks k Kk). lia.
        - rewrite !wt_cons, !wt_app, (name_marks k Kk). lia. }
      rewrite Ep, !wt_app, Eq in W. clear P1.
      assert (X : s = t1 /\ forall v, pp_val q = Some v -> ~ looks_quoted (v ++ t ++ rest)).
      { cbn [concat] in E. rewrite <- !app_assoc in E.
        assert (NB : forall w k c y b, SpecDoc.blank w -> name_ok k -> In c [SEMI; COLON; EQUALS] -> k ++ c :: y = w ++ b -> w = []).
        { intros [|d w] k0 c y b Bw Kk C X; [easy|exfalso]. inversion Bw as [|? ? D _]; subst. destruct k0 as [|c0 k0]; cbn [app] in X; injection X as -> _.
          - cbn in C. destruct D as [-> | ->]; intuition discriminate.
          - inversion Kk as [|? ? Kc _]; subst. destruct D as [-> | ->]; destruct Kc as [I|I]; try discriminate I; vm_compute in I; intuition discriminate. }
        destruct (ptext_head qs r) as (c & y & Ec & Ic). rewrite <- (ptext_texts qs ts1 F1) in Ec.
        destruct H as [k v|k]; inversion Q as [k' o w t0 rest0 Bw Kk Vv|k' w rest0 Bw Kk N1 N2 N3]; subst; cbn [pp_val pp_key] in *.
        - cbn [app] in E. injection E as E. rewrite <- !app_assoc in E. cbn [app] in E.
          assert (w = []) as -> by (eapply NB; [exact Bw|exact Kk| |exact E]; cbn; auto). cbn [app] in *. apply app_inv_head in E. injection E as E.
          inversion Vv as [v0 rest0 Nv Dv|v0 rest0 Nv Sv Cv Ev Qv|]; subst.
          + exfalso. revert W L2. rewrite !wt_cons, !wt_app, !wt_cons, !wt_app. change (marks DQ) with 1. lia.
          + split; [easy|]. intros v1 [= <-] X. now apply Qv, looks_quoted_spec.
        - exfalso. cbn [app] in E. injection E as E. rewrite <- !app_assoc, Ec in E. inversion Vv; subst. cbn [app] in E.
          assert (w = []) as -> by (eapply NB; [exact Bw|exact Kk| |exact E]; cbn in Ic |- *; tauto). cbn [app] in E. apply app_inv_head in E. injection E as -> _. cbn in Ic. intuition discriminate.
        - cbn [app] in E. injection E as E. rewrite <- !app_assoc, Ec in E.
          assert (w = []) as -> by (eapply NB; [exact Bw|exact Kk| |exact E]; cbn in Ic |- *; tauto). split; [easy|]. discriminate. }
      destruct X as [-> X]. cbn [concat] in E. rewrite <- !app_assoc in E. apply app_inv_head in E.
      destruct (IH ts1 r F1 B1 ltac:(lia) E) as [IH1 IH2]. split; [|now rewrite IH2]. constructor; [easy| |easy]. intros v Ev. rewrite E. now apply X.
  Qed.
  Theorem property_back : forall p s ts, pprop_write p = Ret s -> Forall2 pparam_written (pr_params p) ts ->
    (read_property (unfold s) = Ok p <->
     unfold s = Parser.pr_name p ++ concat ts ++ COLON :: pr_val p ++ [CR; LF] /\ pr_back p /\ params_open (pr_params p) ts (COLON :: pr_val p)).
  Proof.
    intros p s ts W F. pose proof (ptext_texts _ _ F) as Ets.
    assert (OC : forall qs ts r, params_open qs ts (r ++ [CR; LF]) <-> params_open qs ts r).
    { clear. intros qs ts r. assert (A : forall v x, looks_quoted (v ++ concat x ++ r ++ [CR; LF]) <-> looks_quoted (v ++ concat x ++ r)).
      { intros v x. rewrite (app_assoc (concat x)), (app_assoc v). apply looks_quoted_crlf. }
      split; revert ts; induction qs as [|q qs IH]; intros ts O; inversion O; subst; constructor; auto; intros v Ev; [rewrite <- A|rewrite A]; auto. }
    split.
    - intros R. apply read_property_exact in R as [NR R].
      assert (LR : line_read (unfold s) p).
      { destruct R as [R|(A & k & (r & E & K & _) & ->)]; [easy|exfalso]. cbn [Parser.pr_name pr_params pr_val] in *.
        unfold pprop_write, write_folded in W. destruct (fold_line _) as [f| |] eqn:Fl; cbn [obind] in W; try easy. injection W as <-.
        assert (Us : unfold (f ++ crlf) = k ++ [COLON] ++ [CR; LF]).
        { change crlf with (CR :: LF :: []). rewrite (unfold_fold_app _ _ _ Fl).
          - cbn [app]. rewrite unfold_crlf_keep by easy. change (unfold []) with (@nil N). unfold pprop_line. cbn [Parser.pr_name pr_params pr_val map concat app]. now rewrite <- app_assoc.
          - unfold pprop_line. cbn [Parser.pr_name pr_params pr_val map concat app]. apply mark_free_no_lf. rewrite in_app_iff. intros [I|I]; [now apply name_no_lf in I|]. vm_compute in I. intuition discriminate. }
        apply (A (mk_pprop k (decode_value k [] []) [])). exists [], k, [], [], [], [CR; LF]. rewrite Us. split; [easy|]. split; [constructor|].
        split; [easy|]. split; [constructor; now intros [x X]|]. split; [left; split; [now exists []|now intros ([|] & b & X)]|easy]. }
      clear R. destruct LR as (w0 & k & qs & t & v & rest & E & W0 & K & P & V & ->). cbn [Parser.pr_name pr_params pr_val] in *.
      destruct (unfold_written_end _ _ W) as [u Eu].
      assert (R : has_prefix [CR; LF] rest).
      { rewrite Eu in E. rewrite !app_assoc in E. destruct (ends_crlf u _ _ E) as [x X]. symmetry in X. now apply (cut_crlf _ _ _ X V). }
      destruct R as [r ->].
      assert (E2 : unfold s = pprop_line (mk_pprop k (decode_value k qs v) qs) ++ [CR; LF]).
      { destruct (unfold_written breaking _ _ (le_n 1) W) as [H|H]; [exact H|exfalso]. rewrite E in H. rewrite pprop_line_eq in H. cbn [Parser.pr_name pr_params pr_val] in H.
        rewrite !wt_app, !wt_cons, !wt_app in H. change (wt breaking [CR; LF]) with 1 in H. change (wt breaking []) with 0 in H. change (breaking CR) with 0 in H. change (breaking LF) with 1 in H. pose proof (params_breaking _ _ _ P).
        pose proof (decode_weight breaking k qs v eq_refl eq_refl eq_refl (le_n 1)). lia. }
      assert (PR : prop_reads (unfold s) (mk_pprop k (decode_value k qs v) qs) r).
      { split; [easy|]. exists ([CR; LF] ++ r). split; [left; exists [CR; LF]; split; [unfold break; auto|easy]|]. left. exists w0, k, qs, t, v. easy. }
      assert (PB : pr_back (mk_pprop k (decode_value k qs v) qs)).
      { apply prop_marks in PR as [L1 L2]. apply L2. rewrite E2, wt_app in *. change (wt marks [CR; LF]) with 0 in *. lia. }
      split; [|split; [easy|]].
      + rewrite E2, pprop_line_eq. cbn [Parser.pr_name pr_params pr_val]. rewrite Ets, <- !app_assoc. easy.
      + apply OC. rewrite pprop_line_eq in E2. cbn [Parser.pr_name pr_params pr_val] in E2. rewrite <- Ets in E2. rewrite <- !app_assoc in E2. cbn [app] in E2.
        pose proof (ptext_head qs (decode_value k qs v ++ [CR; LF])) as (c & y & Ec & Ic). rewrite <- Ets in Ec.
        assert (w0 = []) as ->. { rewrite E, Ec in E2. now apply (no_white _ _ _ _ _ W0 K Ic E2). }
        cbn [app] in E. assert (WM : wt marks (unfold s) = wt marks (concat ts) + wt marks (decode_value k qs v)).
        { rewrite E2, !wt_app, wt_cons, !wt_app, (name_marks k K). change (wt marks [CR; LF]) with 0. change (marks COLON) with 0. lia. }
        assert (WM2 : wt marks (unfold s) = wt marks t + wt marks v + wt marks r).
        { rewrite E, !wt_app, wt_cons, !wt_app, (name_marks k K). change (wt marks (CR :: LF :: r)) with (wt marks r). change (marks COLON) with 0. lia. }
        rewrite E in E2. apply app_inv_head in E2. symmetry in E2.
        destruct PB as (_ & PB & _). cbn [pr_params] in PB. cbn [app].
        destruct (read_open qs t _ P ts (decode_value k qs v ++ [CR; LF]) F PB) as [RO _]; [|exact E2|exact RO].
        pose proof (proj1 (params_marks _ _ _ P)). pose proof (proj1 (decode_marks k qs v)). rewrite Ets in *. lia.
    - intros (E & PB & PO). destruct PB as ((K & K1 & K2) & B & V & T). pose proof (ptext_head (pr_params p) (pr_val p ++ [CR; LF])) as (c & y & Ec & Ic). rewrite <- Ets in Ec.
      apply read_property_line.
      + rewrite E, Ec, reserved_line by easy. tauto.
      + exists [], (Parser.pr_name p), (pr_params p), (concat ts), (pr_val p), [CR; LF]. split; [easy|]. split; [constructor|]. split; [easy|]. split.
        * apply open_read; try easy. change (COLON :: pr_val p ++ [CR; LF]) with ((COLON :: pr_val p) ++ [CR; LF]). now apply OC.
        * split; [left; split; [now exists []|easy]|]. destruct p as [k v qs]. cbn [Parser.pr_name pr_params pr_val] in *. f_equal. unfold decode_value.
          destruct (determin_value_type k qs) as [[]|]; try easy. symmetry. apply unescape_stable. auto.
  Qed.
End Reprint.
