(** Specification of error messages: what a position in a text is and how an entry reads. *)
From Verif Require Import Str Spec ValueTypes Property Component Calendar Nom Parser.

(** A line of a text: no line feed in it; a line feed or the end after it. *)
Definition line_head (s l : str) : Prop :=
  ~ In LF l /\ (s = l \/ exists r, s = l ++ LF :: r).
(** [l] without the white space at its end. *)
Definition trimmed (l t : str) : Prop :=
  (exists w, l = t ++ w /\ Forall (fun c => is_ws c = true) w)
  /\ (t = [] \/ exists u c, t = u ++ [c] /\ is_ws c = false).

(** [sub] starts in row [row] and column [col] (both from 1) of [input], in the line that reads [l]
    without white space at the end.  [width] tells how columns are counted: in characters ([length]) or
    in octets. *)
Definition position (width : str -> nat) (input sub : str) (row col : nat) (l : str) : Prop :=
  exists above here full,
    input = above ++ here ++ sub
    /\ (above = [] \/ exists x, above = x ++ [LF]) /\ ~ In LF here
    /\ row = 1 + count_occ N.eq_dec above LF
    /\ col = 1 + width here
    /\ line_head (here ++ sub) full /\ trimmed full l.

Definition shown_kind (k : vkind) : string :=
  match k with
  | VContext c => c
  | VNom KTag => "Tag" | VNom KCrLf => "CrLf" | VNom KTakeTill1 => "TakeTill1" | VNom KIsNot => "IsNot"
  | VNom KTakeUntil => "TakeUntil" | VNom KEof => "Eof" | VNom KAlt => "Alt" | VNom KMany0 => "Many0"
  | VNom KManyTill => "ManyTill" | VNom KSatisfy => "Satisfy"
  end%string.

(** A decimal numeral without leading zeros. *)
Definition number (s : str) (n : nat) : Prop :=
  Forall (fun c => (48 <= c <= 57)%N) s /\ s <> [] /\ (hd 0%N s = 48%N -> s = [48%N])
  /\ fold_left (fun a c => 10 * a + (N.to_nat c - 48)) s 0 = n.

(** The entries numbered from [k], one after the other. *)
Inductive entries (width : str -> nat) (input : str) : nat -> verror -> str -> Prop :=
| E_nil : forall k, entries width input k [] []
| E_cons : forall k sub w e row col l nk nrow text,
    position width input sub row col l -> number nk k -> number nrow row ->
    entries width input (S k) e text ->
    entries width input k ((sub, w) :: e)
      (nk ++ lit ": at line " ++ nrow ++ lit ", in " ++ lit (shown_kind w) ++ lit ":" ++ [LF]
       ++ l ++ [LF] ++ repeat SP (col - 1) ++ lit "^" ++ [LF; LF] ++ text).
(** For the empty input there is no line to show. *)
Inductive entries_empty : nat -> verror -> str -> Prop :=
| Z_nil : forall k, entries_empty k [] []
| Z_cons : forall k sub w e nk text, number nk k -> entries_empty (S k) e text ->
    entries_empty k ((sub, w) :: e)
      (nk ++ lit ": in " ++ lit (shown_kind w) ++ lit ", got empty input" ++ [LF; LF] ++ text).
Definition message_for (width : str -> nat) (input : str) (e : verror) (m : str) : Prop :=
  exists t, m = lit "error: " ++ t
    /\ (input <> [] -> entries width input 0 e t) /\ (input = [] -> entries_empty 0 e t).

(** A reader and its version with a message: same successes, and the failures come with the message for their errors. *)
Definition reported (width : str -> nat) {A} (i : str) (r : result A verror) (r' : result A str) : Prop :=
  (forall a, r' = Ok a <-> r = Ok a) /\ (forall m, r' = Err m -> exists e, r = Err e /\ message_for width i e m).
