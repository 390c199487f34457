(** Where the parser looks for the line breaks of a document: specification. *)
From Verif Require Import Str Spec ValueTypes Property Chrono DateTime Component Calendar Nom Parser SpecDoc.

(** A line whose value is followed by [r]: the value, in a document with CR LF; else all that follows, and the value again. *)
Definition line_looks (y : style) (l : wline) (r : str) : nat :=
  match l, y with
  | LBare _, _ => 0
  | LValue _ _ v, CrLf => length v + 1
  | LValue _ _ v, Lf => (length v + length r + 1) + (length v + 1)
  end.
(** [tree_looks y t s rest n]: the text [s] of [t], followed by [rest], takes [n] looks. *)
Inductive tree_looks (y : style) : wtree -> str -> str -> nat -> Prop :=
| tl_tree : forall n its kb ke eb ee ss rest m,
    map lower_ascii kb = lit "begin:" -> map lower_ascii ke = lit "end:" -> line_end y eb -> line_end y ee ->
    items_look y its ss (ke ++ n ++ ee ++ rest) m ->
    tree_looks y (W n its) (kb ++ n ++ eb ++ concat ss ++ ke ++ n ++ ee) rest m
with items_look (y : style) : list (wline + wtree) -> list str -> str -> nat -> Prop :=
| il_nil : forall rest, items_look y [] [] rest 0
| il_line : forall l e its ss rest m, line_end y e -> items_look y its ss rest m ->
    items_look y (inl l :: its) ((wline_text l ++ e) :: ss) rest (line_looks y l (e ++ concat ss ++ rest) + m)
| il_tree : forall t s its ss rest k m, tree_looks y t s (concat ss ++ rest) k -> items_look y its ss rest m ->
    items_look y (inr t :: its) (s :: ss) rest (k + m).
(** The number of lines with a value. *)
Fixpoint value_lines (t : wtree) : nat :=
  match t with W n its => list_sum (map (fun x => match x with inl (LValue _ _ _) => 1 | inl (LBare _) => 0 | inr t => value_lines t end) its) end.
(** Every colon is followed, somewhere, by a CR LF. *)
Definition crlf_ahead (i : str) : Prop := forall a v, i = a ++ COLON :: v -> has_crlf v.
