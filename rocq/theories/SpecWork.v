(** The characters that are asked for while a line is folded. *)
From Verif Require Import Str Spec SpecFold.

(** [looks l p q is]: from [p] down to the place [q] (see [lands]); [is] are the numbers of the characters asked for. *)
Inductive looks (l : str) : nat -> nat -> list nat -> Prop :=
| lk_here : forall p, place l p -> looks l p p []
| lk_down : forall p q js, ~ place l (S p) -> ~ ws_index l p -> looks l p q js -> looks l (S p) q (p :: js)
| lk_ws : forall p q js, ~ place l (S (S p)) -> ws_index l (S p) -> looks l p q js -> looks l (S (S p)) q (S p :: js).
(** [asked l a n is]: the same for a whole line, after its part [a]; [n] is the next place to try (see [cuts]). *)
Inductive asked (l : str) : str -> nat -> list nat -> Prop :=
| ak_last : forall a n r, l = a ++ r -> octets r <= 75 -> asked l a n []
| ak_piece : forall a n p r js ks, l = a ++ p ++ r -> 75 < octets (p ++ r) ->
    (ws_index l n /\ looks l (n - 1) (octets (a ++ p)) js \/ ~ ws_index l n /\ looks l n (octets (a ++ p)) js) ->
    asked l (a ++ p) (octets (a ++ p) + 74) ks -> asked l a n (n :: js ++ ks).
(** A character is found by going through the line from its beginning. *)
Definition steps (l : str) (js : list nat) : nat := list_sum (map (fun i => Nat.min (i + 1) (length l)) js).
