(** Line folding (src/properties.rs) and unfolding (src/parser/utils.rs). *)
From Verif Require Import Str.

(** [str::is_char_boundary], used at src/properties.rs:408. *)
Fixpoint is_boundary (l : str) (p : nat) : bool :=
  match p with
  | O => true
  | S _ => match l with
           | [] => false
           | c :: r => if p <? utf8_len c then false else is_boundary r (p - utf8_len c)
           end
  end.

(** The suffix of [l] from byte offset [p]; [None] if [p] is not a boundary. *)
Fixpoint drop_bytes (l : str) (p : nat) : option str :=
  match p with
  | O => Some l
  | S _ => match l with
           | [] => None
           | c :: r => if p <? utf8_len c then None else drop_bytes r (p - utf8_len c)
           end
  end.
(** The prefix of [l] up to byte offset [p]; [None] if [p] is not a boundary. *)
Fixpoint take_bytes (l : str) (p : nat) : option str :=
  match p with
  | O => Some []
  | S _ => match l with
           | [] => None
           | c :: r => if p <? utf8_len c then None
                       else option_map (cons c) (take_bytes r (p - utf8_len c))
           end
  end.
(** [&l[a..b]]: [None] models the slicing panic ([a > b] or not at boundaries);
    src/properties.rs:414 and 422. *)
Definition slice (l : str) (a b : nat) : option str :=
  if b <? a then None
  else match drop_bytes l a with None => None | Some r => take_bytes r (b - a) end.

(** [LIMIT], src/properties.rs:389. *)
Definition LIMIT : nat := 75.

(** [pos_is_whitespace], src/properties.rs:398-403: [next_pos] is a byte offset but is
    used as a character index. *)
Definition pos_is_ws (l : str) (p : nat) : bool :=
  match nth_error l p with Some c => is_ws c | None => false end.

(** The inner [while], src/properties.rs:408-413.  [None] models the arithmetic
    underflow of [next_pos -= 1] at 0 (a panic in debug builds; in release builds
    [next_pos] wraps to [usize::MAX] and the loop counts down from there). *)
Fixpoint back_up (l : str) (p : nat) : option nat :=
  if is_boundary l p then Some p
  else match p with
       | O => Some O                                    (* 0 is always a boundary *)
       | S n => if pos_is_ws l n
                then match n with O => None | S m => back_up l m end
                else back_up l n
       end.

(** The outer [while], src/properties.rs:397-422, one unit of fuel per iteration. *)
Fixpoint fold_loop (fuel : nat) (l : str) (rem pos np : nat) (acc : str) : outcome str :=
  match fuel with
  | O => NoFuel
  | S f =>
      if rem <=? LIMIT then                                        (* :397 exit, :422 *)
        match slice l (blen l - rem) (blen l) with
        | Some s => Ret (acc ++ s)
        | None => Panic
        end
      else
        let np1 := if pos_is_ws l np then np - 1 else np in        (* :404-406; np >= 74 *)
        match back_up l np1 with                                   (* :408-413 *)
        | None => Panic
        | Some np2 =>
            match slice l pos np2 with                             (* :414 *)
            | None => Panic
            | Some s =>
                fold_loop f l (rem - (np2 - pos)) np2 (np2 + (LIMIT - 1))  (* :417-419 *)
                          (acc ++ s ++ [CR; LF; SP])               (* :414-415 *)
            end
        end
  end.

(** [fold_line], src/properties.rs:388-424.  The fuel is shown to be adequate in
    [FoldProofs.fold_fuel_adequate]: [NoFuel] means that the loop never ends. *)
Definition fold_line (l : str) : outcome str :=
  fold_loop (blen l + 2) l (blen l) 0 LIMIT [].

(** [unfold], src/parser/utils.rs:82-89: four successive splits, then concatenation. *)
Definition unfold (s : str) : str :=
  concat (flat_map (split [LF; TAB])
         (flat_map (split [CR; LF; TAB])
         (flat_map (split [LF; SP])
                   (split [CR; LF; SP] s)))).
