(** C01-C05: folding and unfolding of content lines. *)
From Verif Require Import Str Spec Fold Property StrFacts UnfoldProofs FoldProofs.

(** ** C01 *)
Theorem C01_unfold_fold : forall l s,
  fold_line l = Ret s -> mark_free l -> unfold s = l.
Proof. exact unfold_fold_line. Qed.
Print Assumptions C01_unfold_fold.

Example C01_example : exists s,
  let l := lit "SUMMARY:" ++ repeat 233%N 90 ++ lit " tail" in
  fold_line l = Ret s /\ mark_free l /\ length s = length l + 6.
Proof.
  eexists. split; [vm_compute; reflexivity|]. split; [|reflexivity].
  apply mark_free_no_lf. intros H. repeat (destruct H as [H|H]; [discriminate H|]). exact H.
Qed.

(** ** C02: false for the last physical line, which can have 76 octets. *)
Theorem C02_octets_refuted : exists l s first last,
  fold_line l = Ret s /\ s = join_lines [first; last] /\ ~ In LF first /\ ~ In LF last
  /\ octets last = 76.
Proof.
  exists (lit "SUMMARY:" ++ repeat 97%N 142). eexists.
  exists (lit "SUMMARY:" ++ repeat 97%N 67), (SP :: repeat 97%N 75).
  split; [vm_compute; reflexivity|]. split; [reflexivity|].
  split; [|split; [|reflexivity]]; intros H; repeat (destruct H as [H|H]; [discriminate H|]); exact H.
Qed.
Print Assumptions C02_octets_refuted.

(** What does hold: every physical line but the last has at most 75 octets, the last at most 76,
    and a line of at most 75 octets is not folded.  Missing: 75 for the last line. *)
Theorem C02_octets_partial : forall l s, fold_line l = Ret s ->
  exists lines last, s = join_lines (lines ++ [last])
    /\ Forall (fun p => octets p <= 75) lines /\ octets last <= 76
    /\ (~ In LF l -> Forall (fun p => ~ In LF p) (lines ++ [last]))
    /\ (octets l <= 75 -> lines = [] /\ last = l).
Proof. exact fold_line_lines. Qed.
Print Assumptions C02_octets_partial.

Example C02_example : exists s,
  fold_line (lit "SUMMARY:" ++ repeat 8364%N 60) = Ret s.
Proof. eexists. vm_compute. reflexivity. Qed.

(** ** C03: false: a SUMMARY can make serialization panic or never return. *)
Theorem C03_total_refuted_panic : forall U : Unicode, exists v,
  prop_write (prop_new (lit "SUMMARY") v) = Panic.
Proof. intros U. exists (repeat 128512%N 40 ++ repeat 32%N 100). vm_compute. reflexivity. Qed.
Print Assumptions C03_total_refuted_panic.

Theorem C03_total_refuted_hang : forall U : Unicode, exists v,
  let l := prop_line (prop_new (lit "SUMMARY") v) in
  forall fuel, fold_loop fuel l (blen l) 0 LIMIT [] = NoFuel.
Proof.
  intros U. exists (repeat 97%N 7 ++ repeat 128512%N 26 ++ repeat 32%N 77).
  apply fold_fuel_adequate. vm_compute. reflexivity.
Qed.
Print Assumptions C03_total_refuted_hang.

(** What does hold: folding returns for every line in which no run of consecutive non-ASCII characters
    is longer than 71 octets, and for every line in which no 72 consecutive characters contain 18
    white-space characters.  Missing: the other lines, for some of which it is false. *)
Theorem C03_total_partial : forall l,
  (forall a r b, l = a ++ r ++ b -> forallb non_ascii r = true -> octets r <= 71)
  \/ (forall a w b, l = a ++ w ++ b -> length w <= 72 -> length (filter is_ws w) <= 17) ->
  exists s, fold_line l = Ret s.
Proof. exact fold_total_either. Qed.
Print Assumptions C03_total_partial.

Example C03_example :
  (forall a r b, repeat 97%N 200 = a ++ r ++ b -> forallb non_ascii r = true -> octets r <= 71)
  /\ (forall a w b, repeat 128512%N 200 = a ++ w ++ b -> length w <= 72 ->
        length (filter is_ws w) <= 17).
Proof.
  split.
  - intros a [|c r] b H F; [cbn; lia|]. exfalso.
    assert (G : In c (repeat 97%N 200)) by (rewrite H; apply in_or_app; right; now left).
    apply repeat_spec in G. subst c. discriminate F.
  - intros a w b H _. assert (G : forall c, In c w -> c = 128512%N).
    { intros c G. apply (repeat_spec 200). rewrite H. apply in_or_app. right. apply in_or_app. now left. }
    clear H. induction w as [|c w IH]; [cbn; lia|]. cbn [filter]. rewrite (G c (or_introl eq_refl)).
    change (is_ws 128512) with false. apply IH. intros d Hd. apply G. now right.
Qed.

(** ** C04: the folded line is the line cut into pieces; false that only the last piece can be
    empty. *)
Theorem C04_pieces_refuted : exists l s r, fold_line l = Ret s /\ s = CR :: LF :: SP :: r /\ ~ In LF l.
Proof.
  exists (97%N :: repeat 160%N 100). eexists. eexists. split; [vm_compute; reflexivity|].
  split; [reflexivity|]. intros H; repeat (destruct H as [H|H]; [discriminate H|]); exact H.
Qed.
Print Assumptions C04_pieces_refuted.

(** Missing: the first piece can be empty if all characters that start at octets 1 to 72 are
    non-ASCII. *)
Theorem C04_pieces_partial : forall l s, fold_line l = Ret s ->
  exists ps last, s = join_fold ps last /\ l = concat ps ++ last
    /\ Forall (fun p => p <> []) (tl ps)
    /\ ((exists a c b, l = a ++ c :: b /\ 1 <= octets a <= 72 /\ non_ascii c = false) ->
        Forall (fun p => p <> []) ps).
Proof. exact fold_line_pieces. Qed.
Print Assumptions C04_pieces_partial.

Example C04_example : exists s a c b,
  let l := lit "SUMMARY:" ++ repeat 97%N 300 in
  fold_line l = Ret s /\ l = a ++ c :: b /\ 1 <= octets a <= 72 /\ non_ascii c = false.
Proof.
  eexists. exists (lit "S"), 85%N. eexists. split; [vm_compute; reflexivity|].
  split; [reflexivity|]. split; [|reflexivity]. vm_compute. lia.
Qed.

(** ** C05 *)
Theorem C05_unfold_exact : forall s t, unfolds s t <-> unfold s = t.
Proof. exact unfolds_iff. Qed.
Print Assumptions C05_unfold_exact.

Example C05_example :
  unfold (lit "A" ++ [CR; LF; SP] ++ lit "B" ++ [CR; LF; TAB; SP] ++ lit "C" ++ [CR; LF] ++ lit "D")
  = lit "AB C" ++ [CR; LF] ++ lit "D".
Proof. reflexivity. Qed.
