(** The unchecked [fold_line] against the checked one. *)
From Coq Require Import ZifyBool ZifyNat ZifyN.
From Verif Require Import Str StrFacts Spec Fold FoldProofs CutProofs FoldRelease.

Lemma wsub1_S : forall n, wsub1 (N.of_nat (S n)) = N.of_nat n.
Proof. intros n. unfold wsub1. destruct (_ =? _)%N eqn:E; lia. Qed.

Lemma wback_some : forall p l q, back_up l p = Some q ->
  exists k, wback l (N.of_nat p) (N.of_nat q) k /\ (k <= N.of_nat p)%N.
Proof.
  intros p. induction p as [p IH] using lt_wf_ind. intros l q H.
  destruct p as [|n]; cbn [back_up] in H.
  - exists 0%N. split; [|lia]. replace q with 0 by (destruct (is_boundary l 0); congruence).
    apply wb_stop. unfold wboundary. now destruct l.
  - destruct (is_boundary l (S n)) eqn:E.
    + injection H as <-. exists 0%N. split; [|lia]. apply wb_stop. unfold wboundary. now rewrite Nat2N.id.
    + destruct (pos_is_ws l n) eqn:W.
      * destruct n as [|m]; [easy|]. apply IH in H as (k & H & L); [|lia]. exists (k + 1)%N. split; [|lia].
        apply wb_step; [unfold wboundary; now rewrite Nat2N.id|]. rewrite wsub1_S. unfold wws. rewrite Nat2N.id, W. now rewrite wsub1_S.
      * apply IH in H as (k & H & L); [|lia]. exists (k + 1)%N. split; [|lia].
        apply wb_step; [unfold wboundary; now rewrite Nat2N.id|]. rewrite wsub1_S. unfold wws. rewrite Nat2N.id, W. easy.
Qed.

(** Counting down from beyond the end. *)
Lemma wback_down : forall l p, (N.of_nat (blen l) <= p)%N -> wback l p (N.of_nat (blen l)) (p - N.of_nat (blen l)).
Proof.
  intros l p. induction p as [p IH] using (well_founded_induction N.lt_wf_0). intros L.
  destruct (N.eq_dec p (N.of_nat (blen l))) as [->|Ne].
  - rewrite N.sub_diag. apply wb_stop. unfold wboundary. rewrite Nat2N.id. apply boundary_spec. exists l, []. now rewrite app_nil_r.
  - replace (p - N.of_nat (blen l))%N with ((p - 1 - N.of_nat (blen l)) + 1)%N by lia.
    apply wb_step.
    + unfold wboundary. destruct (is_boundary l (N.to_nat p)) eqn:B; [|easy]. apply boundary_le in B. lia.
    + assert (Q : wsub1 p = (p - 1)%N) by (unfold wsub1; destruct (_ =? _)%N eqn:E; lia). rewrite Q.
      assert (W : wws l (p - 1) = false).
      { unfold wws, pos_is_ws. destruct (nth_error l _) eqn:E; [|easy]. assert (nth_error l (N.to_nat (p - 1)) <> None) as E' by congruence.
        apply nth_error_Some in E'. pose proof (length_blen l). lia. }
      rewrite W. apply IH; lia.
Qed.

Lemma wback_none : forall p l, back_up l p = None -> (N.of_nat (blen l) < 2 ^ 64)%N ->
  exists k, wback l (N.of_nat p) (N.of_nat (blen l)) k /\ (2 ^ 64 - 1 - N.of_nat (blen l) <= k)%N.
Proof.
  intros p. induction p as [p IH] using lt_wf_ind. intros l H L.
  destruct p as [|n]; cbn [back_up] in H; [now destruct (is_boundary l 0)|].
  destruct (is_boundary l (S n)) eqn:E; [easy|].
  destruct (pos_is_ws l n) eqn:W.
  - destruct n as [|m].
    + exists (2 ^ 64 - 1 - N.of_nat (blen l) + 1)%N. split; [|lia]. apply wb_step; [exact E|].
      rewrite wsub1_S. unfold wws. rewrite Nat2N.id, W. apply wback_down. change (wsub1 (N.of_nat 0)) with (2 ^ 64 - 1)%N. lia.
    + apply IH in H as (k & H & K); [|lia|easy]. exists (k + 1)%N. split; [|lia].
      apply wb_step; [unfold wboundary; now rewrite Nat2N.id|]. rewrite wsub1_S. unfold wws. rewrite Nat2N.id, W. now rewrite wsub1_S.
  - apply IH in H as (k & H & K); [|lia|easy]. exists (k + 1)%N. split; [|lia].
    apply wb_step; [unfold wboundary; now rewrite Nat2N.id|]. rewrite wsub1_S. unfold wws. rewrite Nat2N.id, W. easy.
Qed.

Lemma wback_fun : forall l p q k, wback l p q k -> forall q' k', wback l p q' k' -> q = q' /\ k = k'.
Proof.
  intros l p q k H. induction H as [p B|p q k B H IH]; intros q' k' H'; inversion H'; subst; try congruence; [easy|].
  match goal with X : wback l (if _ then _ else _) _ _ |- _ => apply IH in X as [-> ->] end. easy.
Qed.
Lemma wloop_fun : forall l rem pos np acc o k, wloop l rem pos np acc o k ->
  forall o' k', wloop l rem pos np acc o' k' -> o = o' /\ k = k'.
Proof.
  intros l rem pos np acc o k H. induction H as [rem pos np acc Lm|rem pos np acc q k Lm B Sl|rem pos np acc q k s o k1 Lm B Sl H IH];
    intros o' k' H'; inversion H'; subst; try lia; try easy;
    match goal with X : wback l _ _ _ |- _ => destruct (wback_fun _ _ _ _ B _ _ X) as [<- <-] end; try congruence; [easy|].
  match goal with X : slice _ _ _ = Some _ |- _ => rewrite Sl in X; injection X as <- end.
  match goal with X : wloop _ _ _ _ _ o' _ |- _ => apply IH in X as [-> ->] end. easy.
Qed.

(** The subtraction can only underflow if the line starts with a white-space character of
    more than one octet. *)
Lemma back_up_underflow : forall p l, back_up l p = None -> exists c r, l = c :: r /\ is_ws c = true /\ non_ascii c = true.
Proof.
  intros p. induction p as [p IH] using lt_wf_ind. intros l H.
  destruct p as [|n]; cbn [back_up] in H; [now destruct (is_boundary l 0)|].
  destruct (is_boundary l (S n)) eqn:E; [easy|].
  destruct (pos_is_ws l n) eqn:W; [|now apply IH in H; [|lia]].
  destruct n as [|m]; [|now apply IH in H; [|lia]].
  destruct l as [|c r]; [easy|]. exists c, r. repeat split; [exact W|].
  cbn [is_boundary] in E. unfold utf8_len, non_ascii in *. destruct (c <? 128)%N eqn:A; [|lia].
  cbn in E. now destruct r.
Qed.

Definition starts_odd (l : str) : Prop := exists c r, l = c :: r /\ is_ws c = true /\ non_ascii c = true.

(** Checked runs that do not underflow are unchecked runs. *)
Lemma loop_wloop : forall f l rem pos np acc o, (forall p, back_up l p <> None) ->
  fold_loop f l rem pos np acc = o -> o <> NoFuel -> exists k, wloop l rem pos np acc o k.
Proof.
  induction f as [|f IH]; intros l rem pos np acc o U H N; [now subst|].
  rewrite fold_loop_S in H. destruct (rem <=? LIMIT) eqn:L.
  - exists 0%N. subst o. apply wl_end. lia.
  - destruct (back_up l (np1 l np)) as [q|] eqn:B; [|now apply U in B].
    apply wback_some in B as (k & B & _). destruct (slice l pos q) as [s|] eqn:Sl.
    + apply IH in H as (k' & H); [|easy|easy]. exists (k + k')%N.
      eapply wl_step; [lia|exact B| |]; rewrite Nat2N.id; eauto.
    + subst o. exists k. eapply wl_panic; [lia|exact B|]. now rewrite Nat2N.id.
Qed.
Lemma loop_wloop_ret : forall f l rem pos np acc s, fold_loop f l rem pos np acc = Ret s -> exists k, wloop l rem pos np acc (Ret s) k.
Proof.
  induction f as [|f IH]; intros l rem pos np acc o H; [easy|].
  rewrite fold_loop_S in H. destruct (rem <=? LIMIT) eqn:L.
  - exists 0%N. rewrite <- H. apply wl_end. lia.
  - destruct (back_up l (np1 l np)) as [q|] eqn:B; [|easy].
    apply wback_some in B as (k & B & _). destruct (slice l pos q) as [s|] eqn:Sl; [|easy].
    apply IH in H as (k' & H). exists (k + k')%N.
    eapply wl_step; [lia|exact B| |]; rewrite Nat2N.id; eauto.
Qed.

(** Unchecked runs: the checked run gives the same, or it panics and the unchecked one
    counted down. *)
Lemma wloop_loop : forall l rem pos np acc o k, wloop l rem pos np acc o k ->
  (N.of_nat (blen l) < 2 ^ 64)%N -> fold_inv l rem pos ->
  (exists f, fold_loop f l rem pos np acc = o)
  \/ (2 ^ 64 - 1 - N.of_nat (blen l) <= k)%N /\ (exists f, fold_loop f l rem pos np acc = Panic)
     /\ forall x y, l = x ++ y -> blen x = pos -> exists ps, o = Ret (acc ++ join_fold ps []) /\ concat ps = y.
Proof.
  intros l rem pos np acc o k H Lb. induction H as [rem pos np acc Lm|rem pos np acc q k Lm B Sl|rem pos np acc q k s o k1 Lm B Sl H IH]; intros I.
  - left. exists 1. rewrite fold_loop_S. now destruct (rem <=? LIMIT) eqn:E; [|lia].
  - change (if pos_is_ws l np then np - 1 else np) with (np1 l np) in B. destruct (back_up l (np1 l np)) as [q'|] eqn:Q.
    + destruct (wback_some _ _ _ Q) as (k' & B' & _). destruct (wback_fun _ _ _ _ B _ _ B') as [-> ->]. rewrite Nat2N.id in Sl.
      left. exists 1. rewrite fold_loop_S, Q, Sl. now destruct (rem <=? LIMIT) eqn:E; [lia|].
    + destruct (wback_none _ _ Q Lb) as (k' & B' & _). destruct (wback_fun _ _ _ _ B _ _ B') as [-> ->]. rewrite Nat2N.id in Sl.
      exfalso. destruct I as [_ I]. destruct (slice_boundaries l pos (blen l)) as [z Z]; [easy| |now apply boundary_le|congruence].
      apply boundary_spec. exists l, []. now rewrite app_nil_r.
  - change (if pos_is_ws l np then np - 1 else np) with (np1 l np) in B. destruct (back_up l (np1 l np)) as [q'|] eqn:Q.
    + destruct (wback_some _ _ _ Q) as (k' & B' & _). destruct (wback_fun _ _ _ _ B _ _ B') as [-> ->]. rewrite Nat2N.id in *.
      assert (Lp : pos <= q') by (apply slice_spec in Sl as (? & ? & _ & <- & <-); lia).
      destruct IH as [[f F]|(K & [f F] & G)]; [eapply fold_inv_step; eauto| |].
      * left. exists (S f). rewrite fold_loop_S, Q, Sl. now destruct (rem <=? LIMIT) eqn:E; [lia|].
      * right. split; [lia|]. split.
        { exists (S f). rewrite fold_loop_S, Q, Sl. now destruct (rem <=? LIMIT) eqn:E; [lia|]. }
        intros x y E Lx. apply slice_spec in Sl as (u & v & E' & Lu & Ls). rewrite E in E'. apply app_inv_blen in E' as [<- ->]; [|lia].
        destruct (G (x ++ s) v) as (ps & -> & <-); [now rewrite <- app_assoc|rewrite blen_app; lia|].
        exists (s :: ps). cbn [join_fold concat]. split; [|easy]. now rewrite <- !app_assoc.
    + destruct (wback_none _ _ Q Lb) as (k' & B' & K). destruct (wback_fun _ _ _ _ B _ _ B') as [-> ->]. rewrite Nat2N.id in *.
      right. split; [lia|]. split.
      { exists 1. rewrite fold_loop_S, Q. now destruct (rem <=? LIMIT) eqn:E; [lia|]. }
      intros x y E Lx. destruct I as [R _]. inversion H; subst; try (unfold LIMIT in *; lia).
      assert (Z0 : blen (x ++ y) - blen x - (blen (x ++ y) - blen x) = 0) by lia. rewrite Z0, Nat.sub_0_r.
      pose proof (slice_app (x ++ y) [] []) as Z. rewrite !app_nil_r in Z. rewrite Z. clear Z.
      pose proof (slice_app x y []) as Z. rewrite !app_nil_r in Z. rewrite Z in Sl. injection Sl as <-.
      exists [y]. cbn [join_fold concat]. split; [|apply app_nil_r]. now rewrite !app_nil_r.
Qed.

(** A panic of the checked run does not depend on the fuel. *)
Lemma fold_panic_more : forall f l rem pos np acc, fold_loop f l rem pos np acc = Panic ->
  forall g, f <= g -> fold_loop g l rem pos np acc = Panic.
Proof.
  induction f as [|f IH]; intros l rem pos np acc H g L; [easy|]. destruct g as [|g]; [lia|]. rewrite fold_loop_S in H |- *.
  destruct (rem <=? LIMIT); [easy|]. destruct (back_up l (np1 l np)); [|easy]. destruct (slice l pos n); [|easy]. eapply IH; eauto. lia.
Qed.
Lemma fold_line_at : forall f l o, fold_loop f l (blen l) 0 LIMIT [] = o -> o <> NoFuel -> fold_line l = o.
Proof.
  intros f l o H N. destruct (fold_line l) as [t| |] eqn:Q.
  - unfold fold_line in Q. rewrite <- H. destruct (Nat.le_ge_cases f (blen l + 2)) as [L|L].
    + destruct o as [s| |]; [|apply (fold_panic_more _ _ _ _ _ _ H) in L; congruence|easy].
      apply (fold_loop_more _ _ _ _ _ _ _ H) in L. congruence.
    + symmetry. eapply fold_loop_more; eauto.
  - unfold fold_line in Q. rewrite <- H. destruct (Nat.le_ge_cases f (blen l + 2)) as [L|L].
    + destruct o as [s| |]; [|easy|easy]. apply (fold_loop_more _ _ _ _ _ _ _ H) in L. congruence.
    + symmetry. eapply fold_panic_more; eauto.
  - rewrite (fold_fuel_adequate l Q f) in H. congruence.
Qed.
