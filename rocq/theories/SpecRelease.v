(** Lines on a machine of 64 bits. *)
From Verif Require Import Str Spec.

(** Strings that exist on a machine of 64 bits. *)
Definition fits (l : str) : Prop := (N.of_nat (octets l) < 2 ^ 64)%N.
(** White space that is not ASCII. *)
Definition wide_space (c : N) : Prop := is_ws c = true /\ non_ascii c = true.
Definition first_wide (l : str) : Prop := exists c r, l = c :: r /\ wide_space c.
