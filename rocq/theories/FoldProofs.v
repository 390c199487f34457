(** Proofs about [fold_line]. *)
From Verif Require Import Str StrFacts Fold UnfoldProofs.
From Coq Require Import ZifyBool ZifyNat ZifyN.

Lemma utf8_len_bounds : forall c, 1 <= utf8_len c <= 4.
Proof.
  intros c. unfold utf8_len.
  destruct (c <? 128)%N, (c <? 2048)%N, (c <? 65536)%N; lia.
Qed.

Lemma blen_app : forall a b, blen (a ++ b) = blen a + blen b.
Proof. induction a as [|c a IH]; intros; cbn; [easy|]. rewrite IH. lia. Qed.

Lemma length_blen : forall s, length s <= blen s.
Proof. induction s as [|c s IH]; cbn; [easy|]. pose proof (utf8_len_bounds c). lia. Qed.

Lemma blen_zero : forall s, blen s = 0 -> s = [].
Proof. intros [|c s] H; [easy|]. cbn in H. pose proof (utf8_len_bounds c). lia. Qed.

(** ** Byte offsets *)

Lemma drop_bytes_spec : forall l p r, drop_bytes l p = Some r ->
  exists a, l = a ++ r /\ blen a = p.
Proof.
  induction l as [|c l IH]; intros p r; destruct p as [|p]; cbn [drop_bytes]; intros H; try easy.
  - injection H as <-. now exists [].
  - injection H as <-. now exists [].
  - destruct (S p <? utf8_len c) eqn:E; [easy|].
    apply IH in H as (a & -> & L). exists (c :: a). split; [easy|]. cbn [blen]. lia.
Qed.

Lemma drop_bytes_app : forall a r, drop_bytes (a ++ r) (blen a) = Some r.
Proof.
  induction a as [|c a IH]; intros r; cbn [app blen]; [now destruct r|].
  pose proof (utf8_len_bounds c). destruct (utf8_len c + blen a) as [|n] eqn:E; [lia|].
  cbn [drop_bytes]. destruct (S n <? utf8_len c) eqn:F; [lia|].
  replace (S n - utf8_len c) with (blen a) by lia. apply IH.
Qed.

Lemma take_bytes_spec : forall l p s, take_bytes l p = Some s ->
  exists r, l = s ++ r /\ blen s = p.
Proof.
  induction l as [|c l IH]; intros p s; destruct p as [|p]; cbn [take_bytes]; intros H; try easy.
  - injection H as <-. now exists [].
  - injection H as <-. now exists (c :: l).
  - destruct (S p <? utf8_len c) eqn:E; [easy|].
    destruct (take_bytes l (S p - utf8_len c)) as [t|] eqn:T; [|easy]. cbn in H. injection H as <-.
    apply IH in T as (r & -> & L). exists r. split; [easy|]. cbn [blen]. lia.
Qed.

Lemma take_bytes_app : forall s r, take_bytes (s ++ r) (blen s) = Some s.
Proof.
  induction s as [|c s IH]; intros r; cbn [app blen]; [now destruct r|].
  pose proof (utf8_len_bounds c). destruct (utf8_len c + blen s) as [|n] eqn:E; [lia|].
  cbn [take_bytes]. destruct (S n <? utf8_len c) eqn:F; [lia|].
  replace (S n - utf8_len c) with (blen s) by lia. now rewrite IH.
Qed.

Lemma boundary_spec : forall l p, is_boundary l p = true <-> exists a b, l = a ++ b /\ blen a = p.
Proof.
  induction l as [|c l IH]; intros p; destruct p as [|p]; cbn [is_boundary]; split; intros H; try easy.
  - now exists [], [].
  - destruct H as (a & b & E & L). symmetry in E. apply app_eq_nil in E as [-> ->]. easy.
  - now exists [], (c :: l).
  - destruct (S p <? utf8_len c) eqn:E; [easy|].
    apply IH in H as (a & b & -> & L). exists (c :: a), b. split; [easy|]. cbn [blen]. lia.
  - destruct H as (a & b & E & L). destruct a as [|x a]; [easy|].
    injection E as <- ->. cbn [blen] in L.
    destruct (S p <? utf8_len c) eqn:F; [lia|]. apply IH. exists a, b. split; [easy|]. lia.
Qed.

Lemma boundary_le : forall l p, is_boundary l p = true -> p <= blen l.
Proof. intros l p H. apply boundary_spec in H as (a & b & -> & <-). rewrite blen_app. lia. Qed.

Lemma slice_spec : forall l a b s, slice l a b = Some s ->
  exists x y, l = x ++ s ++ y /\ blen x = a /\ blen x + blen s = b.
Proof.
  intros l a b s. unfold slice. destruct (b <? a) eqn:E; [easy|].
  destruct (drop_bytes l a) as [r|] eqn:D; [|easy]. intros T.
  apply drop_bytes_spec in D as (x & -> & L). apply take_bytes_spec in T as (y & -> & L').
  exists x, y. repeat split; [easy|]. lia.
Qed.

Lemma app_inv_blen : forall a b c d, a ++ b = c ++ d -> blen a = blen c -> a = c /\ b = d.
Proof.
  induction a as [|x a IH]; intros b c d E L; destruct c as [|y c].
  - auto.
  - cbn in L. pose proof (utf8_len_bounds y). lia.
  - cbn in L. pose proof (utf8_len_bounds x). lia.
  - injection E as <- E. cbn in L. destruct (IH b c d E ltac:(lia)) as [-> ->]. auto.
Qed.

Lemma app_inv_blen_le : forall a b c d, a ++ b = c ++ d -> blen a <= blen c ->
  exists e, c = a ++ e /\ b = e ++ d.
Proof.
  induction a as [|x a IH]; intros b c d E L.
  - exists c. auto.
  - destruct c as [|y c]; cbn in L; [pose proof (utf8_len_bounds x); lia|].
    injection E as <- E. destruct (IH b c d E ltac:(lia)) as (e & -> & ->). now exists e.
Qed.

Lemma slice_boundaries : forall l a b, is_boundary l a = true -> is_boundary l b = true -> a <= b ->
  exists s, slice l a b = Some s.
Proof.
  intros l a b Ha Hb L. apply boundary_spec in Ha as (x & y & -> & <-).
  apply boundary_spec in Hb as (u & v & E & <-).
  destruct (app_inv_blen_le _ _ _ _ E L) as (e & -> & ->).
  exists e. unfold slice. destruct (_ <? _) eqn:F; [lia|].
  rewrite drop_bytes_app, blen_app.
  replace (blen x + blen e - blen x) with (blen e) by lia. apply take_bytes_app.
Qed.

(** ** The shape of a folded line *)

Lemma back_up_le : forall p l q, back_up l p = Some q -> q <= p.
Proof.
  intros p. induction p as [p IH] using lt_wf_ind. intros l q.
  destruct p as [|n]; cbn [back_up].
  - destruct (is_boundary l 0); intros H; injection H as <-; lia.
  - destruct (is_boundary l (S n)); [intros H; injection H as <-; lia|].
    destruct (pos_is_ws l n).
    + destruct n as [|m]; [easy|]. intros H. apply IH in H; lia.
    + intros H. apply IH in H; lia.
Qed.

Lemma back_up_boundary : forall p l q, back_up l p = Some q -> is_boundary l q = true.
Proof.
  intros p. induction p as [p IH] using lt_wf_ind. intros l q.
  destruct p as [|n]; cbn [back_up].
  - destruct (is_boundary l 0) eqn:E; intros H; injection H as <-; [easy|]. now destruct l.
  - destruct (is_boundary l (S n)) eqn:E; [intros H; injection H as <-; easy|].
    destruct (pos_is_ws l n).
    + destruct n as [|m]; [easy|]. intros H. apply IH in H; [easy|lia].
    + intros H. apply IH in H; [easy|lia].
Qed.

Lemma back_up_stop : forall b l, is_boundary l b = true -> is_boundary l (S b) = true ->
  forall p, b < p -> exists q, back_up l p = Some q /\ b <= q.
Proof.
  intros b l B1 B2 p. induction p as [p IH] using lt_wf_ind. intros L.
  destruct p as [|n]; [lia|]. cbn [back_up].
  destruct (is_boundary l (S n)) eqn:E; [eexists; split; [reflexivity|lia]|].
  assert (b <> n) by congruence.
  destruct (pos_is_ws l n).
  - destruct n as [|m]; [lia|]. destruct (Nat.eq_dec m b) as [->|Ne].
    + exists b. split; [|lia]. destruct b; cbn [back_up]; now rewrite B1.
    + apply IH; lia.
  - apply IH; lia.
Qed.

Definition np1 (l : str) (np : nat) : nat := if pos_is_ws l np then np - 1 else np.

(** One turn of the loop. *)
Lemma fold_loop_S : forall f l rem pos np acc,
  fold_loop (S f) l rem pos np acc =
  if rem <=? LIMIT then
    match slice l (blen l - rem) (blen l) with Some s => Ret (acc ++ s) | None => Panic end
  else match back_up l (np1 l np) with
       | None => Panic
       | Some np2 =>
           match slice l pos np2 with
           | None => Panic
           | Some s => fold_loop f l (rem - (np2 - pos)) np2 (np2 + (LIMIT - 1))
                                 (acc ++ s ++ [CR; LF; SP])
           end
       end.
Proof. reflexivity. Qed.

(** A turn that makes no progress repeats for ever. *)
Lemma fold_stuck : forall g l rem pos acc, LIMIT < rem -> back_up l (np1 l (pos + 74)) = Some pos ->
  is_boundary l pos = true -> fold_loop g l rem pos (pos + 74) acc = NoFuel.
Proof.
  induction g as [|g IH]; intros l rem pos acc Hr Hb Hp; [easy|].
  rewrite fold_loop_S, Hb. destruct (rem <=? LIMIT) eqn:E; [lia|].
  destruct (slice_boundaries l pos pos Hp Hp ltac:(lia)) as [s ->].
  replace (rem - (pos - pos)) with rem by lia. now apply IH.
Qed.

(** The loop from a state reached after the first turn. *)
Record fold_inv (l : str) (rem pos : nat) : Prop :=
  { fi_rem : rem = blen l - pos; fi_bnd : is_boundary l pos = true }.

Lemma fold_inv_step : forall l rem pos np np2, fold_inv l rem pos ->
  back_up l np = Some np2 -> pos <= np2 -> fold_inv l (rem - (np2 - pos)) np2.
Proof.
  intros l rem pos np np2 [R B] H L. apply back_up_boundary in H. split; [|easy].
  apply boundary_le in B, H. lia.
Qed.

Lemma fold_loop_spec : forall f l rem pos np acc s x y, fold_inv l rem pos ->
  l = x ++ y -> blen x = pos -> (np = pos + 74 \/ pos = 0 /\ np = 75) ->
  fold_loop f l rem pos np acc = Ret s ->
  exists ps last, s = acc ++ join_fold ps last /\ y = concat ps ++ last /\ blen last <= 75
    /\ Forall (fun p => blen p <= 74) (tl ps)
    /\ (match ps with p :: _ => blen p <= np - pos | [] => blen last = rem end)
    /\ Forall (fun p => p <> []) (tl ps)
    /\ (np = pos + 74 -> Forall (fun p => p <> []) ps)
    /\ ((forall np2, back_up l (np1 l np) = Some np2 -> pos < np2) -> Forall (fun p => p <> []) ps)
    /\ (LIMIT < rem -> ps <> []).
Proof.
  induction f as [|f IH]; intros l rem pos np acc s x y I Hl Hx Hnp H; [easy|].
  rewrite fold_loop_S in H. destruct (rem <=? LIMIT) eqn:E.
  - destruct (slice l (blen l - rem) (blen l)) as [t|] eqn:S; [|easy]. injection H as <-.
    apply slice_spec in S as (u & v & Hv & Lu & Lt).
    destruct I as [R B]. apply boundary_le in B.
    assert (Hv0 : blen v = 0).
    { assert (blen l = blen u + (blen t + blen v)) by (rewrite Hv, !blen_app; reflexivity). lia. }
    apply blen_zero in Hv0 as ->. rewrite app_nil_r in Hv.
    assert (Hu : u = x /\ t = y).
    { apply app_inv_blen; [congruence|]. lia. }
    destruct Hu as [-> ->]. exists [], y. unfold LIMIT in *.
    assert (blen y = rem) by lia. cbn [tl join_fold concat app].
    repeat split; auto; try lia; constructor.
  - destruct (back_up l (np1 l np)) as [np2|] eqn:Bk; [|easy].
    destruct (slice l pos np2) as [t|] eqn:S; [|easy].
    pose proof S as S'. apply slice_spec in S' as (u & v & Hv & Lu & Lt).
    assert (Hu : u = x /\ t ++ v = y).
    { apply app_inv_blen; [congruence|]. lia. }
    destruct Hu as [-> <-].
    assert (L2 : np2 <= np).
    { apply back_up_le in Bk. unfold np1 in Bk. destruct (pos_is_ws l np); lia. }
    assert (I2 : fold_inv l (rem - (np2 - pos)) np2).
    { eapply fold_inv_step; eauto. lia. }
    change (LIMIT - 1) with 74 in H.
    destruct (IH l (rem - (np2 - pos)) np2 (np2 + 74) (acc ++ t ++ [CR; LF; SP]) s (x ++ t) v I2)
      as (ps & last & E1 & E2 & E3 & E4 & E5 & E6 & E7 & _ & E8).
    + now rewrite <- app_assoc.
    + rewrite blen_app. lia.
    + now left.
    + exact H.
    + exists (t :: ps), last. cbn [tl join_fold concat].
      assert (E7' : Forall (fun p => p <> []) ps) by auto.
      repeat split; auto.
      * rewrite E1. now rewrite <- !app_assoc.
      * rewrite E2. now rewrite <- app_assoc.
      * destruct ps as [|p ps]; [constructor|]. cbn in E4. constructor; [lia|easy].
      * lia.
      * intros Enp. constructor; [|easy]. intros ->. cbn in Lt. subst np.
        assert (Epos : np2 = pos) by lia. rewrite Epos in *.
        rewrite fold_stuck in H; [easy| | |].
        -- unfold LIMIT in *. lia.
        -- exact Bk.
        -- apply I.
      * intros G. constructor; [|easy]. intros ->. cbn in Lt. specialize (G _ eq_refl). lia.
      * easy.
Qed.

Lemma boundary_0 : forall l, is_boundary l 0 = true.
Proof. now destruct l. Qed.

Lemma fold_line_shape : forall l s, fold_line l = Ret s ->
  exists ps last, s = join_fold ps last /\ l = concat ps ++ last
    /\ (match ps with [] => blen last <= 75 | p :: _ => blen p <= 75 end)
    /\ Forall (fun p => blen p <= 74) (tl ps) /\ blen last <= 75
    /\ Forall (fun p => p <> []) (tl ps)
    /\ (blen l <= 75 <-> ps = [])
    /\ ((exists a c b, l = a ++ c :: b /\ 1 <= blen a <= 72 /\ non_ascii c = false) ->
        Forall (fun p => p <> []) ps).
Proof.
  intros l s H. unfold fold_line in H.
  assert (I : fold_inv l (blen l) 0) by (split; [lia|apply boundary_0]).
  destruct (fold_loop_spec _ l (blen l) 0 LIMIT [] s [] l I eq_refl eq_refl (or_intror (conj eq_refl eq_refl)) H)
    as (ps & last & E1 & E2 & E3 & E4 & E5 & E6 & E7 & E9 & E8).
  exists ps, last. cbn in E1. unfold LIMIT in *. repeat split; auto.
  - destruct ps as [|p ps]; [lia|]. lia.
  - intros L. destruct ps as [|p ps]; [easy|]. exfalso.
    destruct (blen l + 2) as [|f] eqn:F; [lia|]. rewrite fold_loop_S in H.
    unfold LIMIT in H. destruct (blen l <=? 75) eqn:G; [|lia].
    destruct (slice l _ _) as [t|] eqn:S; [|easy]. injection H as H. cbn in H.
    apply slice_spec in S as (u & v & Hv & Lu & Lt).
    assert (length l = length (concat (p :: ps) ++ last)) by now rewrite <- E2.
    assert (length t <= length l) by (rewrite Hv, !app_length; lia).
    assert (length (join_fold (p :: ps) last) >= 3 + length (concat (p :: ps) ++ last)); [|congruence || (rewrite <- E1, <- H in *; lia)].
    clear. cbn [join_fold concat]. rewrite !app_length. cbn [length].
    assert (length (join_fold ps last) >= length (concat ps ++ last)); [|rewrite !app_length in *; lia].
    induction ps as [|q ps IH]; cbn [join_fold concat]; [cbn [app]; lia|]. rewrite !app_length in *. cbn [length]. lia.
  - intros ->. lia.
  - intros (a & c & b & El & La & Na). apply E9. intros np2 B2.
    destruct (back_up_stop (blen a) l) with (p := np1 l 75) as (q & Q1 & Q2).
    + apply boundary_spec. now exists a, (c :: b).
    + apply boundary_spec. exists (a ++ [c]), b. rewrite <- app_assoc, blen_app. cbn [blen app].
      unfold utf8_len. unfold non_ascii in Na. destruct (c <? 128)%N eqn:?; [|lia]. split; [easy|lia].
    + unfold np1. destruct (pos_is_ws l 75); lia.
    + rewrite B2 in Q1. injection Q1 as ->. lia.
Qed.

(** ** Fuel *)

Lemma fold_adequate_cont : forall f l rem pos acc, fold_inv l rem pos -> rem < f ->
  fold_loop f l rem pos (pos + 74) acc = NoFuel ->
  forall g acc', fold_loop g l rem pos (pos + 74) acc' = NoFuel.
Proof.
  induction f as [|f IH]; intros l rem pos acc I Lf H g acc'; [lia|].
  destruct g as [|g]; [easy|]. rewrite fold_loop_S in H |- *.
  destruct (rem <=? LIMIT) eqn:E; [now destruct (slice _ _ _)|].
  destruct (back_up l (np1 l (pos + 74))) as [np2|] eqn:Bk; [|easy].
  destruct (slice l pos np2) as [t|] eqn:S; [|easy].
  apply slice_spec in S as (u & v & Hv & Lu & Lt).
  change (LIMIT - 1) with 74 in *.
  assert (I2 : fold_inv l (rem - (np2 - pos)) np2) by (eapply fold_inv_step; eauto; lia).
  destruct (Nat.eq_dec np2 pos) as [->|Ne].
  - replace (rem - (pos - pos)) with rem by lia. apply fold_stuck; [lia|easy|apply I].
  - eapply IH; [exact I2| |exact H]. unfold LIMIT in *. lia.
Qed.

(** [NoFuel] means that the loop of the code never ends. *)
Theorem fold_fuel_adequate : forall l, fold_line l = NoFuel ->
  forall g, fold_loop g l (blen l) 0 LIMIT [] = NoFuel.
Proof.
  intros l H g. unfold fold_line in H. destruct g as [|g]; [easy|].
  replace (blen l + 2) with (S (blen l + 1)) in H by lia.
  rewrite fold_loop_S in H |- *.
  destruct (blen l <=? LIMIT) eqn:E; [now destruct (slice _ _ _)|].
  destruct (back_up l (np1 l LIMIT)) as [np2|] eqn:Bk; [|easy].
  destruct (slice l 0 np2) as [t|] eqn:S; [|easy].
  change (LIMIT - 1) with 74 in *.
  eapply fold_adequate_cont; [|shelve|exact H].
  eapply fold_inv_step; [|exact Bk|lia]. split; [lia|apply boundary_0].
  Unshelve. lia.
Qed.

Lemma fold_loop_more : forall f l rem pos np acc s, fold_loop f l rem pos np acc = Ret s ->
  forall g, f <= g -> fold_loop g l rem pos np acc = Ret s.
Proof.
  induction f as [|f IH]; intros l rem pos np acc s H g L; [easy|].
  destruct g as [|g]; [lia|]. rewrite fold_loop_S in H |- *.
  destruct (rem <=? LIMIT); [easy|]. destruct (back_up l (np1 l np)); [|easy].
  destruct (slice l pos n); [|easy]. eapply IH; [eassumption|lia].
Qed.

(** ** Totality *)

Lemma fold_total_loop : forall l,
  (forall pos, is_boundary l pos = true -> 75 < blen l - pos ->
     exists np2, back_up l (np1 l (pos + 74)) = Some np2 /\ pos < np2) ->
  forall f rem pos acc, fold_inv l rem pos -> rem < f ->
  exists s, fold_loop f l rem pos (pos + 74) acc = Ret s.
Proof.
  intros l P. induction f as [|f IH]; intros rem pos acc I L; [lia|].
  rewrite fold_loop_S. destruct I as [R B]. destruct (rem <=? LIMIT) eqn:E.
  - pose proof (boundary_le _ _ B).
    destruct (slice_boundaries l (blen l - rem) (blen l)) as [s ->].
    + now replace (blen l - rem) with pos by lia.
    + apply boundary_spec. exists l, []. now rewrite app_nil_r.
    + lia.
    + eauto.
  - unfold LIMIT in E. destruct (P pos B ltac:(lia)) as (np2 & Bk & L2). rewrite Bk.
    destruct (slice_boundaries l pos np2 B (back_up_boundary _ _ _ Bk) ltac:(lia)) as [s ->].
    apply IH.
    + eapply fold_inv_step; [split; eassumption|exact Bk|lia].
    + lia.
Qed.

Lemma fold_total : forall l,
  (forall pos np, is_boundary l pos = true -> 75 < blen l - pos ->
     np = pos + 74 \/ np = pos + 75 ->
     exists np2, back_up l (np1 l np) = Some np2 /\ pos < np2) ->
  exists s, fold_line l = Ret s.
Proof.
  intros l P. unfold fold_line. replace (blen l + 2) with (S (blen l + 1)) by lia.
  rewrite fold_loop_S. destruct (blen l <=? LIMIT) eqn:E.
  - destruct (slice_boundaries l (blen l - blen l) (blen l)) as [s ->].
    + rewrite Nat.sub_diag. apply boundary_0.
    + apply boundary_spec. exists l, []. now rewrite app_nil_r.
    + lia.
    + eauto.
  - unfold LIMIT in E.
    destruct (P 0 LIMIT (boundary_0 l) ltac:(lia) ltac:(now right)) as (np2 & Bk & L2). rewrite Bk.
    destruct (slice_boundaries l 0 np2 (boundary_0 l) (back_up_boundary _ _ _ Bk) ltac:(lia)) as [s ->].
    apply fold_total_loop.
    + intros pos B L. apply P; auto.
    + eapply fold_inv_step; [split; [|apply boundary_0]|exact Bk|lia]. lia.
    + lia.
Qed.

(** *** Short runs of non-ASCII characters *)

Lemma utf8_len_ascii : forall c, non_ascii c = false -> utf8_len c = 1.
Proof. intros c H. unfold non_ascii, utf8_len in *. now replace (c <? 128)%N with true by lia. Qed.

Fixpoint run (s : str) : str :=
  match s with [] => [] | c :: r => if non_ascii c then c :: run r else [] end.
Lemma run_spec : forall s, exists r, s = run s ++ r /\ forallb non_ascii (run s) = true
  /\ match r with [] => True | c :: _ => non_ascii c = false end.
Proof.
  induction s as [|c s (r & E & F & G)]; cbn.
  - now exists [].
  - destruct (non_ascii c) eqn:N.
    + exists r. cbn. rewrite N, <- E. auto.
    + exists (c :: s). auto.
Qed.

Lemma fold_total_runs : forall l,
  (forall a r b, l = a ++ r ++ b -> forallb non_ascii r = true -> blen r <= 71) ->
  exists s, fold_line l = Ret s.
Proof.
  intros l P. apply fold_total. intros pos np B L Hnp.
  apply boundary_spec in B as (x & y & -> & <-).
  rewrite blen_app in L. destruct y as [|c0 y]; [cbn in L; lia|]. cbn [blen] in L.
  destruct (run_spec y) as (r & E & F & G).
  pose proof (utf8_len_bounds c0) as U0.
  assert (R1 : utf8_len c0 + blen (run y) <= 72).
  { destruct (non_ascii c0) eqn:N.
    - assert (blen (c0 :: run y) <= 71); [|cbn [blen] in *; lia].
      apply (P x _ r); [cbn; now rewrite <- E|]. cbn. now rewrite N.
    - rewrite (utf8_len_ascii _ N). assert (blen (run y) <= 71); [|lia].
      apply (P (x ++ [c0]) _ r); [|easy]. rewrite <- app_assoc. cbn. now rewrite <- E. }
  destruct r as [|c1 r].
  { rewrite app_nil_r in E. rewrite <- E in R1. lia. }
  assert (U1 := utf8_len_ascii _ G).
  set (b := blen x + (utf8_len c0 + blen (run y))).
  destruct (back_up_stop b (x ++ c0 :: y)) with (p := np1 (x ++ c0 :: y) np) as (q & Q1 & Q2).
  - apply boundary_spec. exists (x ++ c0 :: run y), (c1 :: r).
    rewrite blen_app, <- app_assoc. cbn. now rewrite <- E.
  - apply boundary_spec. exists (x ++ c0 :: run y ++ [c1]), r.
    rewrite <- app_assoc. cbn [app]. rewrite <- app_assoc. cbn [app]. rewrite <- E. split; [easy|].
    rewrite blen_app. cbn [blen]. rewrite blen_app. cbn [blen]. unfold b. lia.
  - unfold np1. destruct (pos_is_ws _ np); unfold b; lia.
  - exists q. split; [easy|]. unfold b in Q2. lia.
Qed.

(** *** Sparse white space *)

Lemma back_up_skips : forall p l q, back_up l p = Some q ->
  forall b, is_boundary l b = true -> q < b <= p -> pos_is_ws l b = true.
Proof.
  intros p. induction p as [p IH] using lt_wf_ind. intros l q.
  destruct p as [|n]; cbn [back_up]; intros H b B L; [lia|].
  destruct (is_boundary l (S n)) eqn:E; [injection H as <-; lia|].
  assert (b <> S n) by congruence.
  destruct (pos_is_ws l n) eqn:W.
  - destruct n as [|m]; [easy|]. destruct (Nat.eq_dec b (S m)) as [->|Ne]; [easy|].
    eapply (IH m); eauto; lia.
  - eapply (IH n); eauto; lia.
Qed.
Lemma back_up_none : forall p l, back_up l p = None ->
  forall b, is_boundary l b = true -> 0 < b <= p -> pos_is_ws l b = true.
Proof.
  intros p. induction p as [p IH] using lt_wf_ind. intros l.
  destruct p as [|n]; cbn [back_up]; intros H b B L; [lia|].
  destruct (is_boundary l (S n)) eqn:E; [easy|].
  assert (b <> S n) by congruence.
  destruct (pos_is_ws l n) eqn:W.
  - destruct n as [|m]; [lia|]. destruct (Nat.eq_dec b (S m)) as [->|Ne]; [easy|].
    eapply (IH m); eauto; lia.
  - eapply (IH n); eauto; lia.
Qed.

(* the ends of the first [k] characters of [y] *)
Fixpoint ends_at (k pos : nat) (y : str) : list nat :=
  match k, y with
  | S k', c :: r => (pos + utf8_len c) :: ends_at k' (pos + utf8_len c) r
  | _, _ => []
  end.
Lemma ends_at_spec : forall k y x, k <= length y ->
  length (ends_at k (blen x) y) = k
  /\ NoDup (ends_at k (blen x) y)
  /\ (forall e, In e (ends_at k (blen x) y) ->
        blen x < e <= blen x + 4 * k /\ is_boundary (x ++ y) e = true).
Proof.
  induction k as [|k IH]; intros y x L; cbn [ends_at].
  - repeat split; try easy. constructor.
  - destruct y as [|c y]; [cbn in L; lia|]. cbn in L.
    pose proof (utf8_len_bounds c) as U.
    replace (blen x + utf8_len c) with (blen (x ++ [c])) by (rewrite blen_app; cbn; lia).
    destruct (IH y (x ++ [c]) ltac:(lia)) as (H1 & H2 & H3).
    assert (Lx : blen (x ++ [c]) = blen x + utf8_len c) by (rewrite blen_app; cbn; lia).
    repeat split.
    + cbn. now rewrite H1.
    + constructor; [|easy]. intros F. apply H3 in F. lia.
    + destruct H as [<-|H]; [lia|]. apply H3 in H. lia.
    + destruct H as [<-|H]; [lia|]. apply H3 in H. lia.
    + destruct H as [<-|H].
      * apply boundary_spec. exists (x ++ [c]), y. rewrite <- app_assoc. auto.
      * apply H3 in H. now rewrite <- app_assoc in H.
Qed.

Lemma filter_ws_count : forall w, length (filter is_ws w) =
  length (filter (fun i => pos_is_ws w i) (seq 0 (length w))).
Proof.
  induction w as [|c w IH]; [easy|]. cbn [length seq filter].
  rewrite <- seq_shift.
  assert (M : forall l, length (filter (fun i => pos_is_ws (c :: w) i) (map S l))
                = length (filter (fun i => pos_is_ws w i) l)).
  { induction l as [|i l IHl]; [easy|]. cbn [map filter].
    change (pos_is_ws (c :: w) (S i)) with (pos_is_ws w i).
    destruct (pos_is_ws w i); cbn [length]; now rewrite IHl. }
  change (pos_is_ws (c :: w) 0) with (is_ws c).
  destruct (is_ws c); cbn [length]; now rewrite M, <- IH.
Qed.

Lemma nth_error_skipn : forall (A : Type) k (l : list A) i, nth_error (skipn k l) i = nth_error l (k + i).
Proof. induction k as [|k IH]; intros l i; [easy|]. destruct l; [now destruct i|]. apply IH. Qed.
Lemma nth_error_firstn : forall (A : Type) k (l : list A) i, i < k -> nth_error (firstn k l) i = nth_error l i.
Proof.
  induction k as [|k IH]; intros l i H; [lia|]. destruct l; [easy|]. destruct i; [easy|].
  cbn. apply IH. lia.
Qed.

Lemma ws_window : forall l lo es, NoDup es ->
  (forall e, In e es -> lo < e <= lo + 72 /\ pos_is_ws l e = true) ->
  length es <= length (filter is_ws (firstn 72 (skipn (S lo) l))).
Proof.
  intros l lo es N H. rewrite filter_ws_count.
  set (w := firstn 72 (skipn (S lo) l)).
  replace (length es) with (length (map (fun e => e - S lo) es)) by apply map_length.
  apply NoDup_incl_length.
  - assert (Inj : forall a b, In a es -> In b es -> a - S lo = b - S lo -> a = b).
    { intros a b Ha Hb E. apply H in Ha, Hb. lia. }
    clear H w. induction N as [|e es Ne N IH]; [constructor|]. cbn. constructor.
    + intros F. apply in_map_iff in F as (e' & E & F). apply Ne.
      replace e with e'; [easy|]. apply Inj; cbn; auto.
    + apply IH. intros a b Ha Hb. apply Inj; cbn; auto.
  - intros i F. apply in_map_iff in F as (e & <- & F). apply H in F as [L W].
    assert (W' : pos_is_ws w (e - S lo) = true).
    { unfold pos_is_ws in *. unfold w. rewrite nth_error_firstn, nth_error_skipn by lia.
      now replace (S lo + (e - S lo)) with e by lia. }
    apply filter_In. split; [|easy]. apply in_seq. split; [lia|].
    assert (e - S lo < length w); [|lia]. apply nth_error_Some.
    unfold pos_is_ws in W'. now destruct (nth_error w (e - S lo)).
Qed.

Lemma blen_le_4 : forall s, blen s <= 4 * length s.
Proof. induction s as [|c s IH]; cbn; [easy|]. pose proof (utf8_len_bounds c). lia. Qed.

Lemma fold_total_sparse : forall l,
  (forall a w b, l = a ++ w ++ b -> length w <= 72 -> length (filter is_ws w) <= 17) ->
  exists s, fold_line l = Ret s.
Proof.
  intros l P. apply fold_total. intros pos np B L Hnp.
  assert (W : forall p, pos + 72 <= p ->
     (forall b, is_boundary l b = true -> pos < b <= p -> pos_is_ws l b = true) -> False).
  { intros p Lp H. apply boundary_spec in B as (x & y & -> & <-).
    rewrite blen_app in L. pose proof (blen_le_4 y).
    destruct (ends_at_spec 18 y x ltac:(lia)) as (H1 & H2 & H3).
    assert (18 <= length (filter is_ws (firstn 72 (skipn (S (blen x)) (x ++ y))))).
    { transitivity (length (ends_at 18 (blen x) y)); [rewrite H1; lia|]. apply ws_window; [easy|]. intros e He. apply H3 in He as [E1 E2].
      split; [lia|]. apply H; [easy|lia]. }
    specialize (P (firstn (S (blen x)) (x ++ y)) (firstn 72 (skipn (S (blen x)) (x ++ y)))
                  (skipn 72 (skipn (S (blen x)) (x ++ y)))).
    rewrite !firstn_skipn in P. specialize (P eq_refl (firstn_le_length _ _)). lia. }
  assert (Lp : pos + 72 <= np1 l np) by (unfold np1; destruct (pos_is_ws l np); lia).
  destruct (back_up l (np1 l np)) as [q|] eqn:Bk.
  - exists q. split; [easy|]. destruct (le_lt_dec q pos) as [F|F]; [|easy]. exfalso.
    apply (W (np1 l np) Lp). intros b Hb Lb. eapply back_up_skips; eauto. lia.
  - exfalso. apply (W (np1 l np) Lp). intros b Hb Lb. eapply back_up_none; eauto. lia.
Qed.

(** ** Unfolding a folded line *)

Lemma unfold_join : forall ps last, mark_free (concat ps ++ last) ->
  unfold (join_fold ps last) = concat ps ++ last.
Proof.
  induction ps as [|p ps IH]; intros last H; cbn [join_fold concat].
  - now apply unfold_mark_free.
  - cbn [concat] in H. rewrite <- app_assoc in H |- *. cbn [app].
    rewrite unfold_app_cr by now apply mark_free_app_l in H.
    rewrite unfold_crlf_sp, IH; [easy|]. now apply mark_free_app_r in H.
Qed.

Lemma unfold_fold_line : forall l s, fold_line l = Ret s -> mark_free l -> unfold s = l.
Proof.
  intros l s H M. apply fold_line_shape in H as (ps & last & -> & E & _). subst l.
  now apply unfold_join.
Qed.

(** The same inside a document: what follows starts with CR. *)
Lemma unfold_join_app : forall ps last r, mark_free (concat ps ++ last) ->
  unfold (join_fold ps last ++ CR :: r) = concat ps ++ last ++ unfold (CR :: r).
Proof.
  induction ps as [|p ps IH]; intros last r H; cbn [join_fold concat].
  - now apply unfold_app_cr.
  - cbn [concat] in H. rewrite <- !app_assoc in H |- *. cbn [app].
    rewrite unfold_app_cr by now apply mark_free_app_l in H.
    rewrite unfold_crlf_sp, IH by now apply mark_free_app_r in H.
    now rewrite ?app_assoc.
Qed.

Lemma unfold_fold_app : forall l s r, fold_line l = Ret s -> mark_free l ->
  unfold (s ++ CR :: r) = l ++ unfold (CR :: r).
Proof.
  intros l s r H M. apply fold_line_shape in H as (ps & last & -> & E & _). subst l.
  rewrite unfold_join_app by easy. now rewrite app_assoc.
Qed.

(** ** Physical lines *)

Lemma join_fold_lines : forall ps last,
  join_lines (map (cons SP) ps ++ [SP :: last]) = SP :: join_fold ps last.
Proof.
  induction ps as [|p ps IH]; intros last; [easy|]. cbn [map app].
  cbn [join_lines join_fold].
  destruct (map (cons SP) ps ++ [SP :: last]) eqn:E; [now destruct ps|].
  rewrite <- E, IH. easy.
Qed.
Lemma join_lines_cons : forall p ls, ls <> [] -> join_lines (p :: ls) = p ++ [CR; LF] ++ join_lines ls.
Proof. intros p [|l ls] H; easy. Qed.

Lemma octets_blen : forall s, octets s = blen s.
Proof. apply utf8s_length. Qed.

Lemma fold_line_lines : forall l s, fold_line l = Ret s ->
  exists lines last, s = join_lines (lines ++ [last])
    /\ Forall (fun p => octets p <= 75) lines /\ octets last <= 76
    /\ (~ In LF l -> Forall (fun p => ~ In LF p) (lines ++ [last]))
    /\ (octets l <= 75 -> lines = [] /\ last = l).
Proof.
  intros l s H. apply fold_line_shape in H as (ps & last & -> & E & H1 & H2 & H3 & H4 & H5 & _).
  destruct ps as [|p ps].
  - exists [], last. cbn in *. subst l. rewrite octets_blen.
    repeat split; auto; lia.
  - exists (p :: map (cons SP) ps), (SP :: last). repeat split.
    + cbn [app]. rewrite join_lines_cons, join_fold_lines by now destruct ps. easy.
    + constructor; [now rewrite octets_blen|]. apply Forall_map. cbn [tl] in H2.
      eapply Forall_impl; [|exact H2]. intros q Hq. cbn beta in *. rewrite octets_blen. cbn [blen]. change (utf8_len SP) with 1. lia.
    + rewrite octets_blen. cbn [blen]. change (utf8_len SP) with 1. lia.
    + intros N. subst l. cbn [concat] in N. rewrite <- app_assoc, !in_app_iff in N.
      cbn [app]. constructor; [tauto|]. apply Forall_app. split.
      * apply Forall_map, Forall_forall. intros q Hq [F|F]; [easy|].
        apply N. right. left. apply in_concat. eauto.
      * constructor; [|constructor]. intros [F|F]; [easy|tauto].
    + exfalso. rewrite octets_blen in H. now apply H5 in H.
    + exfalso. rewrite octets_blen in H. now apply H5 in H.
Qed.

Lemma fold_total_either : forall l,
  (forall a r b, l = a ++ r ++ b -> forallb non_ascii r = true -> octets r <= 71)
  \/ (forall a w b, l = a ++ w ++ b -> length w <= 72 -> length (filter is_ws w) <= 17) ->
  exists s, fold_line l = Ret s.
Proof.
  intros l [H|H].
  - apply fold_total_runs. intros a r b E F. rewrite <- octets_blen. eauto.
  - now apply fold_total_sparse.
Qed.

Lemma fold_line_pieces : forall l s, fold_line l = Ret s ->
  exists ps last, s = join_fold ps last /\ l = concat ps ++ last
    /\ Forall (fun p => p <> []) (tl ps)
    /\ ((exists a c b, l = a ++ c :: b /\ 1 <= octets a <= 72 /\ non_ascii c = false) ->
        Forall (fun p => p <> []) ps).
Proof.
  intros l s H. apply fold_line_shape in H as (ps & last & -> & E & H1 & H2 & H3 & H4 & H5 & H6).
  exists ps, last. repeat split; auto. intros (a & c & b & G). apply H6. exists a, c, b.
  now rewrite <- octets_blen.
Qed.

Lemma unfolds_iff : forall s t, unfolds s t <-> unfold s = t.
Proof. intros s t. split; [apply unfold_eq|]. intros <-. apply unfold_unfolds. Qed.
