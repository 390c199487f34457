(** The work of [fold_line] (src/properties.rs:388-424): the characters visited by [line.chars().nth(next_pos)],
    which starts at the beginning of the line each time (399-400, called at 404 and 410). *)
From Verif Require Import Str Fold.

(** [nth(p)] takes [p + 1] characters, or all there are. *)
Definition nth_cost (l : str) (p : nat) : nat := Nat.min (S p) (length l).
(** The inner [while], 408-413, as [back_up]. *)
Fixpoint back_cost (l : str) (p : nat) : nat :=
  if is_boundary l p then 0
  else match p with
       | O => 0
       | S n => nth_cost l n + if pos_is_ws l n then match n with O => 0 | S m => back_cost l m end else back_cost l n
       end.
(** The outer [while], 397-420, as [fold_loop]. *)
Fixpoint fold_cost (fuel : nat) (l : str) (rem pos np : nat) : nat :=
  match fuel with
  | O => 0
  | S f =>
      if rem <=? LIMIT then 0
      else
        let np1 := if pos_is_ws l np then np - 1 else np in
        nth_cost l np + back_cost l np1
        + match back_up l np1 with
          | None => 0
          | Some np2 => match slice l pos np2 with
                        | None => 0
                        | Some _ => fold_cost f l (rem - (np2 - pos)) np2 (np2 + (LIMIT - 1))
                        end
          end
  end.
Definition fold_work (l : str) : nat := fold_cost (blen l + 2) l (blen l) 0 LIMIT.
