(** C86: the work of folding a line, exactly. *)
From Verif Require Import Str StrFacts Spec Fold FoldCost SpecFold SpecWork FoldProofs CutProofs WorkProofs.
From Coq Require Import ZifyBool ZifyNat ZifyN.

(** C86.  The characters asked for are determined by the line, and each costs its distance from the beginning of the line. *)
Theorem C86_exact : forall l s, fold_line l = Ret s -> exists js, asked l [] 75 js /\ forall ks, asked l [] 75 ks -> ks = js /\ fold_work l = steps l ks.
Proof.
  intros l s H. destruct (work_exact l s H) as (js & A & W). exists js. split; [easy|]. intros ks K. rewrite (asked_one _ _ _ _ K _ A). easy.
Qed.
Print Assumptions C86_exact.

(** In a line of letters only the place of each cut is looked at; in one of letters of two octets also the way back to it. *)
Example C86_exact_example : (exists s, fold_line (repeat 233%N 80) = Ret s) /\ asked (repeat 233%N 80) [] 75 [75; 74; 148]
  /\ steps (repeat 233%N 80) [75; 74; 148] = 76 + 75 + 80 /\ fold_work (repeat 233%N 80) = 231.
Proof.
  split; [eexists; vm_compute; reflexivity|]. split; [|split; vm_compute; reflexivity].
  assert (NW : forall n, ~ ws_index (repeat 233%N 80) n).
  { intros n W. apply ws_index_spec in W. unfold pos_is_ws in W. destruct (nth_error _ n) eqn:E; [|easy]. apply nth_error_In, repeat_spec in E. subst. discriminate. }
  apply (ak_piece _ [] 75 (repeat 233%N 37) (repeat 233%N 43) [74] [148]); [reflexivity|apply Nat.ltb_lt; reflexivity| |].
  - right. split; [apply NW|]. apply lk_down; [|apply NW|].
    + apply place_not. vm_compute. reflexivity.
    + replace (octets _) with 74 by (vm_compute; reflexivity). apply lk_here, place_spec. vm_compute. reflexivity.
  - apply (ak_piece _ _ _ (repeat 233%N 37) (repeat 233%N 6) [] []); [reflexivity|apply Nat.ltb_lt; reflexivity| |].
    + right. split; [apply NW|]. change (looks (repeat 233%N 80) 148 148 []). apply lk_here, place_spec. vm_compute. reflexivity.
    + apply (ak_last _ _ _ (repeat 233%N 6)); [reflexivity|apply Nat.leb_le; reflexivity].
Qed.
