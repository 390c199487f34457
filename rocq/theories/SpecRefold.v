(** Where a text is folded. *)
From Verif Require Import Str Spec.

(** A fold: a line break and a blank. *)
Definition mark (m : str) : Prop := exists c, blank c /\ (m = [CR; LF; c] \/ m = [LF; c]).
(** A fold that begins in [a] and ends in [b]. *)
Definition across (a b : str) : Prop :=
  exists a' x y b', a = a' ++ x /\ b = y ++ b' /\ x <> [] /\ y <> [] /\ mark (x ++ y).
(** Ways of folding the same text: folds are put in, or taken out, where they do not break up or make up another one. *)
Inductive refolded : str -> str -> Prop :=
| rf_fold : forall a m b, mark m -> ~ across a b -> ~ across a m -> refolded (a ++ b) (a ++ m ++ b)
| rf_refl : forall s, refolded s s
| rf_sym : forall s t, refolded s t -> refolded t s
| rf_trans : forall s t u, refolded s t -> refolded t u -> refolded s u.
