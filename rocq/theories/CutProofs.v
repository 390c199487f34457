(** Where lines are cut; the text of reserialized documents. *)
From Verif Require Import Str StrFacts Spec Fold Text ValueTypes Property Chrono DateTime Component Calendar Nom Parser
  SpecBuild SpecDate SpecTree SpecText SpecFold FoldProofs TreeProofs WrittenProofs.
From Coq Require Import ZifyBool ZifyNat ZifyN.

Lemma place_spec : forall l p, place l p <-> is_boundary l p = true.
Proof.
  intros l p. rewrite boundary_spec. unfold place. split; intros (a & b & -> & <-); exists a, b; now rewrite octets_blen.
Qed.
Lemma place_not : forall l p, ~ place l p <-> is_boundary l p = false.
Proof. intros l p. rewrite place_spec. destruct (is_boundary l p); split; easy. Qed.
Lemma ws_index_spec : forall l i, ws_index l i <-> pos_is_ws l i = true.
Proof.
  intros l i. unfold ws_index, pos_is_ws. destruct (nth_error l i) as [c|].
  - split; [intros (d & Q & H); now injection Q as ->|eauto].
  - split; [intros (d & Q & _); easy|easy].
Qed.
Lemma ws_index_not : forall l i, ~ ws_index l i <-> pos_is_ws l i = false.
Proof. intros l i. rewrite ws_index_spec. destruct (pos_is_ws l i); split; easy. Qed.

Lemma lands_spec : forall l p q, lands l p q <-> back_up l p = Some q.
Proof.
  intros l p. induction p as [p IH] using lt_wf_ind. intros q. split.
  - intros H. inversion H as [p' P|p' q' P W L|p' q' P W L]; subst.
    + apply place_spec in P. destruct q; cbn [back_up]; now rewrite P.
    + apply place_not in P. apply ws_index_not in W. cbn [back_up]. rewrite P, W. apply IH; [lia|easy].
    + apply place_not in P. apply ws_index_spec in W. cbn [back_up]. rewrite P, W. apply IH; [lia|easy].
  - intros H. destruct p as [|p].
    + cbn [back_up] in H. rewrite boundary_0 in H. injection H as <-. constructor. apply place_spec, boundary_0.
    + cbn [back_up] in H. destruct (is_boundary l (S p)) eqn:B.
      * injection H as <-. constructor. now apply place_spec.
      * destruct (pos_is_ws l p) eqn:W.
        -- destruct p as [|p]; [easy|]. apply ld_ws; [now apply place_not|now apply ws_index_spec|]. apply IH; [lia|easy].
        -- apply ld_down; [now apply place_not|now apply ws_index_not|]. apply IH; [lia|easy].
Qed.
Lemma cut_place_spec : forall l p q, cut_place l p q <-> back_up l (np1 l p) = Some q.
Proof.
  intros l p q. unfold cut_place, np1. destruct (pos_is_ws l p) eqn:W.
  - apply ws_index_spec in W. rewrite lands_spec. tauto.
  - apply ws_index_not in W. rewrite !lands_spec. tauto.
Qed.

Lemma slice_app : forall a p r, slice (a ++ p ++ r) (blen a) (blen (a ++ p)) = Some p.
Proof.
  intros a p r. unfold slice. rewrite blen_app. replace (blen a + blen p <? blen a) with false by lia.
  rewrite drop_bytes_app. replace (blen a + blen p - blen a) with (blen p) by lia. apply take_bytes_app.
Qed.
Lemma cuts_loop : forall l a n ps last, cuts l a n ps last -> forall acc,
  exists f, fold_loop f l (blen l - blen a) (blen a) n acc = Ret (acc ++ join_fold ps last).
Proof.
  intros l a n ps last H. induction H as [a n r E L|a n p r ps last E L C H IH]; intros acc.
  - exists 1. rewrite fold_loop_S. rewrite octets_blen in L. subst l. rewrite blen_app. unfold LIMIT.
    replace (blen a + blen r - blen a <=? 75) with true by lia.
    replace (blen a + blen r - (blen a + blen r - blen a)) with (blen a) by lia.
    pose proof (slice_app a r []) as S. rewrite !app_nil_r, blen_app in S. now rewrite S.
  - destruct (IH (acc ++ p ++ [CR; LF; SP])) as [f F]. exists (S f). rewrite fold_loop_S.
    rewrite octets_blen in L, C, F. apply cut_place_spec in C. rewrite C. subst l. rewrite slice_app.
    rewrite !blen_app in *. unfold LIMIT. replace (blen a + (blen p + blen r) - blen a <=? 75) with false by lia.
    replace (blen a + (blen p + blen r) - blen a - (blen a + blen p - blen a)) with (blen a + (blen p + blen r) - (blen a + blen p)) by lia.
    change (75 - 1) with 74. rewrite F. cbn [join_fold]. now rewrite <- !app_assoc.
Qed.
Lemma loop_cuts : forall f l a n acc s, (exists r, l = a ++ r) ->
  fold_loop f l (blen l - blen a) (blen a) n acc = Ret s -> exists ps last, cuts l a n ps last /\ s = acc ++ join_fold ps last.
Proof.
  induction f as [|f IH]; intros l a n acc s [r E] H; [easy|]. rewrite fold_loop_S in H.
  destruct (_ <=? LIMIT) eqn:L.
  - subst l. rewrite blen_app in H, L. unfold LIMIT in L.
    replace (blen a + blen r - (blen a + blen r - blen a)) with (blen a) in H by lia.
    pose proof (slice_app a r []) as S. rewrite !app_nil_r, blen_app in S. rewrite S in H. injection H as <-.
    exists [], r. split; [|easy]. apply ct_last; [easy|]. rewrite octets_blen. lia.
  - destruct (back_up l (np1 l n)) as [q|] eqn:B; [|easy]. destruct (slice l (blen a) q) as [p|] eqn:S; [|easy].
    apply slice_spec in S as (x & y & Q & Lx & Lp). rewrite E in Q. apply app_inv_blen in Q as [<- Q]; [|easy].
    subst r. assert (Lq : q = blen (a ++ p)) by (rewrite blen_app; lia).
    replace (blen l - blen a - (q - blen a)) with (blen l - blen (a ++ p)) in H by (rewrite blen_app; lia).
    change (LIMIT - 1) with 74 in H. rewrite Lq in H.
    apply IH in H as (ps & last & C & ->); [|exists y; now rewrite <- app_assoc].
    exists (p :: ps), last. cbn [join_fold]. split; [|now rewrite <- !app_assoc]. apply (ct_piece _ _ _ _ y); [easy| | |].
    + rewrite octets_blen. subst l. rewrite blen_app in L. unfold LIMIT in L. lia.
    + apply cut_place_spec. rewrite octets_blen. now rewrite <- Lq.
    + now rewrite octets_blen.
Qed.
Lemma fold_exact : forall l s, fold_line l = Ret s <-> exists ps last, cuts l [] 75 ps last /\ s = join_fold ps last.
Proof.
  intros l s. split.
  - intros H. apply (loop_cuts (blen l + 2) l [] 75 [] s); [now exists l|]. unfold fold_line in H.
    cbn [blen]. now replace (blen l - 0) with (blen l) by lia.
  - intros (ps & last & C & ->). destruct (cuts_loop _ _ _ _ _ C []) as [f F]. cbn [blen app] in F.
    replace (blen l - 0) with (blen l) in F by lia.
    destruct (fold_line l) as [t| |] eqn:Q.
    + unfold fold_line in Q. pose proof (fold_loop_more _ _ _ _ _ _ _ F (f + (blen l + 2)) ltac:(lia)) as F'.
      pose proof (fold_loop_more _ _ _ _ _ _ _ Q (f + (blen l + 2)) ltac:(lia)) as Q'. change LIMIT with 75 in Q'. rewrite F' in Q'. now injection Q' as <-.
    + exfalso. unfold fold_line in Q. change LIMIT with 75 in Q.
      assert (M : forall f l rem pos np acc, fold_loop f l rem pos np acc = Panic -> forall g s, fold_loop g l rem pos np acc = Ret s -> False).
      { clear. induction f as [|f IH]; intros l rem pos np acc H g s G; [easy|]. destruct g as [|g]; [easy|]. rewrite fold_loop_S in H, G.
        destruct (rem <=? LIMIT); [now destruct (slice _ _ _)|]. destruct (back_up l (np1 l np)); [|easy]. destruct (slice l pos n); [|easy].
        eapply IH; eauto. }
      eapply M; eauto.
    + change 75 with LIMIT in F. rewrite (fold_fuel_adequate l Q f) in F. easy.
Qed.

(** ** ASCII *)
Lemma ascii_blen : forall s, forallb non_ascii s = false \/ True -> Forall (fun c => non_ascii c = false) s -> blen s = length s.
Proof. intros s _ H. induction H as [|c s C H IH]; [easy|]. cbn. rewrite utf8_len_ascii by easy. lia. Qed.
Lemma ascii_place : forall l p, Forall (fun c => non_ascii c = false) l -> p <= length l -> place l p.
Proof.
  intros l p A L. exists (firstn p l), (skipn p l). split; [symmetry; apply firstn_skipn|]. rewrite octets_blen, ascii_blen.
  - rewrite firstn_length. lia.
  - now right.
  - apply Forall_forall. intros c I. rewrite Forall_forall in A. apply A. rewrite <- (firstn_skipn p l). apply in_or_app. now left.
Qed.
Lemma ws_index_app : forall a r n, length a = n -> ws_index (a ++ r) n <-> ws_next r.
Proof.
  intros a r n <-. unfold ws_index, ws_next. rewrite nth_error_app2, Nat.sub_diag by lia. destruct r as [|c r]; cbn.
  - split; [intros (c & Q & _); easy|intros (c & r & Q & _); easy].
  - split; [intros (d & Q & H); injection Q as ->; eauto|intros (d & x & Q & H); injection Q as <- <-; eauto].
Qed.
Lemma ascii_cuts : forall n r ps last, cut_ascii n r ps last -> forall a, (n = 74 \/ n = 75) -> Forall (fun c => non_ascii c = false) (a ++ r) ->
  cuts (a ++ r) a (length a + n) ps last.
Proof.
  assert (O : forall x, Forall (fun c => non_ascii c = false) x -> octets x = length x).
  { intros x H. rewrite octets_blen. apply ascii_blen; [now right|easy]. }
  intros n r ps last H. induction H as [n s L|n p r ps last L Lp W H IH|n p c r ps last L Lp W H IH]; intros a N A.
  - apply ct_last; [easy|]. rewrite O; [easy|]. now apply Forall_app in A.
  - assert (Oap : octets (a ++ p) = length a + n).
    { rewrite O, app_length; [lia|]. rewrite app_assoc in A. now apply Forall_app in A. }
    apply (ct_piece _ _ _ _ r); [easy| | |].
    + rewrite O; [easy|]. now apply Forall_app in A.
    + right. rewrite Oap. split.
      * rewrite app_assoc. rewrite ws_index_app; [easy|]. rewrite app_length. lia.
      * constructor. apply ascii_place; [easy|]. rewrite !app_length. lia.
    + rewrite app_assoc. rewrite Oap. replace (length a + n) with (length (a ++ p)) by (rewrite app_length; lia).
      apply IH; [now left|]. now rewrite <- app_assoc.
  - assert (Oap : octets (a ++ p) = length a + n - 1).
    { rewrite O, app_length; [lia|]. rewrite app_assoc in A. now apply Forall_app in A. }
    apply (ct_piece _ _ _ _ (c :: r)); [easy| | |].
    + rewrite O; [easy|]. now apply Forall_app in A.
    + left. rewrite Oap. split.
      * replace (a ++ p ++ c :: r) with ((a ++ p ++ [c]) ++ r) by (now rewrite <- !app_assoc).
        rewrite ws_index_app; [easy|]. rewrite !app_length. cbn. lia.
      * constructor. apply ascii_place; [easy|]. rewrite !app_length. cbn. lia.
    + rewrite app_assoc. rewrite Oap. replace (length a + n - 1) with (length (a ++ p)) by (rewrite app_length; lia).
      apply IH; [now left|]. now rewrite <- app_assoc.
Qed.
Lemma cut_ascii_ex : forall m n s, length s < m -> (n = 74 \/ n = 75) -> exists ps last, cut_ascii n s ps last.
Proof.
  induction m as [|m IH]; intros n s L N; [lia|]. destruct (le_lt_dec (length s) 75) as [Q|Q]; [exists [], s; now constructor|].
  pose proof (firstn_skipn n s) as E. pose proof (firstn_length n s) as F. pose proof (skipn_length n s) as G.
  remember (firstn n s) as p eqn:Ep. remember (skipn n s) as r eqn:Er.
  assert (D : ws_next r \/ ~ ws_next r).
  { destruct r as [|c r]; [right; now intros (c & r & ? & _)|]. destruct (is_ws c) eqn:W; [left; exists c, r; auto|].
    right. intros (d & x & K & H). injection K as <- <-. now rewrite W in H. }
  destruct D as [W|W].
  - destruct (rev p) as [|c p'] eqn:R; [apply (f_equal (@length _)) in R; rewrite rev_length in R; cbn in R; lia|].
    apply (f_equal (@rev _)) in R. rewrite rev_involutive in R. cbn in R.
    assert (Lp : length (rev p') = n - 1). { apply (f_equal (@length _)) in R. rewrite app_length in R. cbn in R. lia. }
    destruct (IH 74 (c :: r)) as (ps & last & C); [cbn; lia|now left|].
    exists (rev p' :: ps), last. rewrite R, <- app_assoc in E. cbn in E. rewrite <- E. apply ca_short; try easy; [rewrite E; lia|lia].
  - destruct (IH 74 r) as (ps & last & C); [lia|now left|]. exists (p :: ps), last. rewrite <- E. apply ca_full; try easy; [rewrite E; lia|lia].
Qed.
Lemma fold_ascii : forall l, Forall (fun c => non_ascii c = false) l ->
  exists ps last, cut_ascii 75 l ps last /\ fold_line l = Ret (join_fold ps last).
Proof.
  intros l A. destruct (cut_ascii_ex (S (length l)) 75 l) as (ps & last & C); [lia|now right|]. exists ps, last. split; [easy|].
  apply fold_exact. exists ps, last. split; [|easy]. apply (ascii_cuts 75 l ps last C []); [now right|easy].
Qed.

(** ** Reserialized documents *)
Lemma cut_fold : forall l s, write_folded l = Ret s <-> cut_line l s.
Proof.
  intros l s. unfold write_folded, cut_line. split.
  - intros H. destruct (fold_line l) as [t| |] eqn:Q; cbn [obind] in H; try easy. injection H as <-.
    apply fold_exact in Q as (ps & last & C & ->). now exists ps, last.
  - intros (ps & last & C & ->). assert (Q : fold_line l = Ret (join_fold ps last)) by (apply fold_exact; eauto). now rewrite Q.
Qed.
Lemma pline_line : forall p l, pline_written p l <-> l = pprop_line p.
Proof.
  intros p l. unfold pprop_line. split.
  - intros (ts & F & ->). f_equal. f_equal. f_equal. induction F as [|q t qs ts H _ IH]; [easy|]. cbn [map]. rewrite <- IH. now destruct H.
  - intros ->. eexists. split; [|reflexivity]. induction (pr_params p) as [|[k [v|]] qs IH]; cbn [map]; constructor; try exact IH; constructor.
Qed.
Lemma pprops_written : forall ps s, pprops_write ps = Ret s <->
  exists ts, s = concat ts /\ Forall2 (fun p t => exists l, pline_written p l /\ cut_line l t) ps ts.
Proof.
  assert (P : forall p t, pprop_write p = Ret t <-> exists l, pline_written p l /\ cut_line l t).
  { intros p t. unfold pprop_write. rewrite cut_fold. split; [intros H; exists (pprop_line p); split; [now apply pline_line|easy]|].
    intros (l & L & C). apply pline_line in L. now subst l. }
  induction ps as [|p ps IH]; intros s; cbn [pprops_write].
  - split; [intros H; injection H as <-; now exists []|]. intros (ts & -> & F). now inversion F.
  - split.
    + intros H. destruct (pprop_write p) as [a| |] eqn:Q; cbn [obind] in H; try easy.
      destruct (pprops_write ps) as [b| |] eqn:Q2; cbn [obind] in H; try easy. injection H as <-.
      destruct (proj1 (IH b) eq_refl) as (ts & -> & F). exists (a :: ts). split; [easy|]. constructor; [now apply P|easy].
    + intros (ts & -> & F). inversion F as [|? t ? ts' H F']; subst. apply P in H. rewrite H. cbn [obind].
      rewrite (proj2 (IH (concat ts'))) by eauto. reflexivity.
Qed.
Lemma names_spec : forall k ps, existsb (fun p => str_eqb (pr_name p) k) ps = true <-> names_prop k ps.
Proof.
  intros k ps. rewrite existsb_exists. unfold names_prop. split; intros (p & I & H); exists p; (split; [easy|now apply str_eqb_eq]).
Qed.
Lemma like_spec : forall {U : Unicode} e k ps n x n', env_real e -> like_extra e k ps n = (x, n') ->
  to_lowercase k = lit "calendar" /\ stamp_lines e ps x \/ to_lowercase k <> lit "calendar" /\ x = [].
Proof.
  intros U e k ps n x n' R H. unfold like_extra in H. destruct (str_eqb (to_lowercase k) (lit "calendar")) eqn:Q.
  - left. split; [now apply str_eqb_eq|]. cbv zeta in H.
    set (a := if existsb (fun p => str_eqb (pr_name p) (lit "DTSTAMP")) ps then ([], n) else (lit "DTSTAMP:" ++ format_utc_date_time (now_at e n) ++ crlf, S n)) in H.
    set (b := fun n1 => if existsb (fun p => str_eqb (pr_name p) (lit "UID")) ps then ([], n1) else (lit "UID:" ++ fmt_uuid (uuid_at e n1) ++ crlf, S n1)).
    assert (X : (names_prop (lit "DTSTAMP") ps /\ fst a = []
      \/ ~ names_prop (lit "DTSTAMP") ps /\ exists n t, dt_digits (now_at e n) t /\ fst a = lit "DTSTAMP:" ++ t ++ lit "Z" ++ [CR; LF])).
    { subst a. destruct (existsb _ ps) eqn:D; [left; split; [now apply names_spec|easy]|]. right. split.
      - intros I. apply names_spec in I. rewrite I in D. easy.
      - exists n, (format_naive_date_time (now_at e n)). split; [apply dt_written; apply (R n)|].
        cbn [fst]. unfold format_utc_date_time, crlf. generalize (format_naive_date_time (now_at e n)). intros t. f_equal. apply (app_assoc_reverse t). }
    assert (Y : forall n1, (names_prop (lit "UID") ps /\ fst (b n1) = []
      \/ ~ names_prop (lit "UID") ps /\ exists n t, uuid_text (uuid_at e n) t /\ fst (b n1) = lit "UID:" ++ t ++ [CR; LF])).
    { intros n1. subst b. clearbody a. cbv beta. destruct (existsb _ ps) eqn:D; [left; split; [now apply names_spec|easy]|]. right. split.
      - intros I. apply names_spec in I. rewrite I in D. easy.
      - exists n1, (fmt_uuid (uuid_at e n1)). split; [apply uuid_written; apply (R n1)|easy]. }
    destruct a as [a n1]. specialize (Y n1). unfold b in Y. cbn [fst] in X.
    destruct (if existsb (fun p => str_eqb (pr_name p) (lit "UID")) ps then ([], n1) else _) as [b' n2] in H, Y.
    cbn [fst] in Y. injection H as <- <-. exists a, b'. auto.
  - right. split; [|now injection H as <- <-]. intros K. rewrite K, str_eqb_refl in Q. discriminate.
Qed.
Definition pcomps_write {U : Unicode} (e : env) := fix go (cs : list pcomp) (n : nat) : outcome (str * nat) :=
  match cs with
  | [] => Ret ([], n)
  | c :: r => obind (pcomp_write e c n) (fun '(s, n') => obind (go r n') (fun '(t, n'') => Ret (s ++ t, n'')))
  end.
Lemma pcomp_write_eq : forall {U : Unicode} e k ps cs n, pcomp_write e (mk_pcomp k ps cs) n =
  let '(x, n1) := like_extra e k ps n in
  obind (pprops_write ps) (fun pt => obind (pcomps_write e cs n1) (fun '(ct, n2) =>
  Ret (lit "BEGIN:" ++ k ++ crlf ++ x ++ pt ++ ct ++ lit "END:" ++ k ++ crlf, n2))).
Proof. reflexivity. Qed.
Lemma pcomp_written : forall {U : Unicode} e, env_real e -> forall c n s n', pcomp_write e c n = Ret (s, n') -> pwritten e c s.
Proof.
  intros U e R c. induction c as [k ps cs IH] using pcomp_deep. intros n s n' W. rewrite pcomp_write_eq in W.
  destruct (like_extra e k ps n) as [x n1] eqn:X. apply like_spec in X; [|easy].
  destruct (pprops_write ps) as [pt| |] eqn:P; cbn [obind] in W; try easy. apply pprops_written in P as (ts & -> & F).
  destruct (pcomps_write e cs n1) as [[ct n2]| |] eqn:C; cbn [obind] in W; try easy.
  assert (exists ss, ct = concat ss /\ Forall2 (pwritten e) cs ss) as (ss & -> & G).
  { clear - IH C. revert n1 ct n2 C. induction IH as [|c cs H _ IHl]; intros n1 ct n2 C.
    - injection C as <- <-. now exists [].
    - change (pcomps_write e (c :: cs) n1) with (obind (pcomp_write e c n1) (fun '(s, n') => obind (pcomps_write e cs n') (fun '(t, n'') => Ret (s ++ t, n'')))) in C.
      destruct (pcomp_write e c n1) as [[a m]| |] eqn:Q; cbn [obind] in C; try easy.
      destruct (pcomps_write e cs m) as [[b m2]| |] eqn:Q2; cbn [obind] in C; try easy. injection C as <- <-.
      apply IHl in Q2 as (ss & -> & G). exists (a :: ss). split; [easy|]. constructor; [now apply (H n1 a m)|easy]. }
  assert (s = lit "BEGIN:" ++ k ++ crlf ++ x ++ concat ts ++ concat ss ++ lit "END:" ++ k ++ crlf) as ->
    by (pose proof (f_equal (fun o => match o with Ret (y, _) => y | _ => [] end) W) as W2; symmetry; exact W2).
  now constructor.
Qed.
Lemma pcal_written : forall {U : Unicode} e c s, env_real e -> pcal_write e c = Ret s ->
  pwritten e (mk_pcomp (lit "VCALENDAR") (pcal_props c) (pcal_comps c)) s.
Proof.
  intros U e c s R W. unfold pcal_write in W. destruct (pcomp_write _ _ 0) as [[t n]| |] eqn:Q; cbn [obind] in W; try easy. injection W as <-.
  eapply pcomp_written; eauto.
Qed.
Lemma pcomp_returns : forall {U : Unicode} e c, (lines_cut c -> forall n, exists s n', pcomp_write e c n = Ret (s, n'))
  /\ forall n s n', pcomp_write e c n = Ret (s, n') -> lines_cut c.
Proof.
  intros U e c. induction c as [k ps cs IH] using pcomp_deep. split.
  - intros L n. inversion L as [? ? ? P C]; subst. rewrite pcomp_write_eq. destruct (like_extra e k ps n) as [x n1].
    assert (exists ts, Forall2 (fun p t => exists l, pline_written p l /\ cut_line l t) ps ts) as [ts F].
    { clear - P. induction P as [|p ps (l & s & Q) _ [ts IH]]; [now exists []|]. exists (s :: ts). constructor; eauto. }
    rewrite (proj2 (pprops_written ps (concat ts))) by eauto. cbn [obind].
    assert (forall n1, exists ct n2, pcomps_write e cs n1 = Ret (ct, n2)) as Z.
    { clear - IH C. induction IH as [|c cs [H _] _ IHl]; intros n1; [now exists [], n1|]. inversion C; subst.
      change (pcomps_write e (c :: cs) n1) with (obind (pcomp_write e c n1) (fun '(s, n') => obind (pcomps_write e cs n') (fun '(t, n'') => Ret (s ++ t, n'')))).
      destruct (H ltac:(assumption) n1) as (s & n' & ->). cbn [obind]. destruct (IHl ltac:(assumption) n') as (t & n2 & ->). cbn [obind]. eauto. }
    destruct (Z n1) as (ct & n2 & ->). cbn [obind]. eauto.
  - intros n s n' W. rewrite pcomp_write_eq in W. destruct (like_extra e k ps n) as [x n1].
    destruct (pprops_write ps) as [pt| |] eqn:P; cbn [obind] in W; try easy. apply pprops_written in P as (ts & -> & F).
    destruct (pcomps_write e cs n1) as [[ct n2]| |] eqn:C; cbn [obind] in W; try easy. constructor.
    + clear - F. induction F as [|p t ps ts (l & H) _ IH]; constructor; eauto.
    + clear - IH C. revert n1 ct n2 C. induction IH as [|c cs [_ H] _ IHl]; intros n1 ct n2 C; [constructor|].
      change (pcomps_write e (c :: cs) n1) with (obind (pcomp_write e c n1) (fun '(s, n') => obind (pcomps_write e cs n') (fun '(t, n'') => Ret (s ++ t, n'')))) in C.
      destruct (pcomp_write e c n1) as [[a m]| |] eqn:Q; cbn [obind] in C; try easy.
      destruct (pcomps_write e cs m) as [[b m2]| |] eqn:Q2; cbn [obind] in C; try easy. constructor; eauto.
Qed.
Lemma pcal_returns : forall {U : Unicode} e c, (exists s, pcal_write e c = Ret s) <-> lines_cut (mk_pcomp (lit "VCALENDAR") (pcal_props c) (pcal_comps c)).
Proof.
  intros U e c. unfold pcal_write. split.
  - intros [s W]. destruct (pcomp_write _ _ 0) as [[t n]| |] eqn:Q; cbn [obind] in W; try easy. now apply pcomp_returns in Q.
  - intros L. apply (proj1 (pcomp_returns e _)) with (n := 0) in L as (s & n & ->). cbn [obind]. eauto.
Qed.

(** ** The specifications are functions *)
Lemma app_same_length : forall (a b c d : str), a ++ b = c ++ d -> length a = length c -> a = c /\ b = d.
Proof. induction a as [|x a IH]; intros b [|y c] d H L; try easy. injection H as <- H. injection L as L. now destruct (IH b c d H L) as [-> ->]. Qed.
Lemma cut_ascii_one : forall n s ps last, cut_ascii n s ps last -> forall ps' last', cut_ascii n s ps' last' -> ps = ps' /\ last = last'.
Proof.
  intros n s ps last H. induction H as [n s L|n p r ps last L Lp W H IH|n p c r ps last L Lp W H IH]; intros ps' last' H'.
  - inversion H'; subst; [easy| |]; lia.
  - remember (p ++ r) as s eqn:E. destruct H' as [n s' L'|n p' r' ps' last' L' Lp' W' H'|n p' c' r' ps' last' L' Lp' W' H'].
    + lia.
    + apply app_same_length in E as [-> ->]; [|lia]. now destruct (IH _ _ H') as [-> ->].
    + exfalso. replace (p' ++ c' :: r') with ((p' ++ [c']) ++ r') in E by now rewrite <- app_assoc.
      apply app_same_length in E as [_ ->]; [easy|]. rewrite app_length. cbn. lia.
  - remember (p ++ c :: r) as s eqn:E. destruct H' as [n s' L'|n p' r' ps' last' L' Lp' W' H'|n p' c' r' ps' last' L' Lp' W' H'].
    + lia.
    + exfalso. replace (p ++ c :: r) with ((p ++ [c]) ++ r) in E by now rewrite <- app_assoc.
      apply app_same_length in E as [_ ->]; [easy|]. rewrite app_length. cbn. lia.
    + apply app_same_length in E as [-> E]; [|lia]. injection E as -> ->. now destruct (IH _ _ H') as [-> ->].
Qed.
Lemma cuts_one : forall l a n ps last, cuts l a n ps last -> forall ps' last', cuts l a n ps' last' -> ps = ps' /\ last = last'.
Proof.
  intros l a n ps last H. induction H as [a n r E L|a n p r ps last E L C H IH]; intros ps' last' H'.
  - destruct H' as [a n r' E'|a n p' r' ps' last' E' L' C' H']; subst l; apply app_inv_head in E'; [easy|]. subst r. lia.
  - destruct H' as [a n r' E' L'|a n p' r' ps' last' E' L' C' H'].
    + subst l. apply app_inv_head in E'. subst r'. lia.
    + apply cut_place_spec in C, C'. rewrite C in C'. injection C' as Q. rewrite !octets_blen in Q.
      assert (X : (a ++ p) ++ r = (a ++ p') ++ r') by (rewrite <- !app_assoc; now rewrite <- E, <- E').
      apply app_inv_blen in X as [X _]; [|easy]. apply app_inv_head in X. subst p'. now destruct (IH _ _ H') as [-> ->].
Qed.
Lemma prop_cut : forall {U : Unicode} p s, prop_write p = Ret s <-> exists l, line_written p l /\ cut_line l s.
Proof.
  intros U p s. unfold prop_write. rewrite cut_fold. split.
  - intros H. exists (prop_line p). split; [apply line_written_line|easy].
  - intros (l & L & H). now rewrite (line_written_unique p _ _ (line_written_line p) L).
Qed.
Lemma prop_ascii : forall {U : Unicode} p l, line_written p l -> Forall (fun c => non_ascii c = false) l ->
  exists ps last, cut_ascii 75 l ps last /\ prop_write p = Ret (join_fold ps last ++ [CR; LF]).
Proof.
  intros U p l L A. destruct (fold_ascii l A) as (ps & last & C & F). exists ps, last. split; [easy|].
  rewrite (line_written_unique p _ _ L (line_written_line p)) in F. unfold prop_write, write_folded. now rewrite F.
Qed.
