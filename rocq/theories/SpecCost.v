(** What the work of the parser depends on: the places where a component starts whose BEGIN is not in capitals. *)
From Verif Require Import Str.

(** [begin:] in any case, but not in capitals. *)
Definition soft_begin (s : str) : bool := starts_with (lit "begin:") (map lower_ascii s) && negb (starts_with (lit "BEGIN:") s).
(** The number of places of a text where it stands. *)
Fixpoint soft_begins (s : str) : nat :=
  match s with
  | [] => 0
  | c :: r => (if soft_begin s then 1 else 0) + soft_begins r
  end.
(** [k] lines [begin:b]. *)
Fixpoint begins_only (k : nat) : str :=
  match k with O => [] | S k => lit "begin:b" ++ LF :: begins_only k end.
(** The number of places where [begin:] stands, in any case. *)
Fixpoint begin_places (s : str) : nat :=
  match s with
  | [] => 0
  | c :: r => (if starts_with (lit "begin:") (map lower_ascii s) then 1 else 0) + begin_places r
  end.
