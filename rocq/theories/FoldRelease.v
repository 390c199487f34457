(** [fold_line] (src/properties.rs:388-424) as built without overflow checks (the default of
    release builds), on a machine of 64 bits: [next_pos -= 1] at 0 gives [2^64 - 1] and the
    inner loop goes on from there.  The counting down may take [2^64] turns, so the loops are
    relations and not functions with fuel: a loop that never ends relates to nothing.  The
    last argument counts the turns of the inner loop. *)
From Verif Require Import Str Fold.
Local Open Scope N_scope.

(** [next_pos -= 1] on [usize], wrapping; src/properties.rs:405, 409 and 411. *)
Definition wsub1 (p : N) : N := if p =? 0 then 2 ^ 64 - 1 else p - 1.

(** [str::is_char_boundary] and [pos_is_whitespace] (src/properties.rs:408 and 398-403) at
    positions of 64 bits; beyond the length of the line there is neither a boundary nor a
    character, so no conversion to [nat] of a huge number is meant to be computed. *)
Definition wboundary (l : str) (p : N) : bool := is_boundary l (N.to_nat p).
Definition wws (l : str) (p : N) : bool := pos_is_ws l (N.to_nat p).

(** The inner [while], src/properties.rs:408-413: from, to, number of turns. *)
Inductive wback (l : str) : N -> N -> N -> Prop :=
| wb_stop p : wboundary l p = true -> wback l p p 0
| wb_step p q k : wboundary l p = false ->
    wback l (if wws l (wsub1 p) then wsub1 (wsub1 p) else wsub1 p) q k -> wback l p q (k + 1).

(** The outer [while] and the end, src/properties.rs:397-423. *)
Inductive wloop (l : str) : nat -> nat -> nat -> str -> outcome str -> N -> Prop :=
| wl_end rem pos np acc : (rem <= LIMIT)%nat ->
    wloop l rem pos np acc
      (match slice l (blen l - rem) (blen l) with Some s => Ret (acc ++ s) | None => Panic end) 0
| wl_panic rem pos np acc q k : (LIMIT < rem)%nat ->
    wback l (N.of_nat (if pos_is_ws l np then np - 1 else np)) q k ->
    slice l pos (N.to_nat q) = None -> wloop l rem pos np acc Panic k
| wl_step rem pos np acc q k s o k' : (LIMIT < rem)%nat ->
    wback l (N.of_nat (if pos_is_ws l np then np - 1 else np)) q k ->
    slice l pos (N.to_nat q) = Some s ->
    wloop l (rem - (N.to_nat q - pos)) (N.to_nat q) (N.to_nat q + (LIMIT - 1)) (acc ++ s ++ [CR; LF; SP]) o k' ->
    wloop l rem pos np acc o (k + k').

(** [fold_line] without overflow checks gives [o] after [k] turns of the inner loop. *)
Definition wfold_line (l : str) (o : outcome str) (k : N) : Prop := wloop l (blen l) 0 LIMIT [] o k.
