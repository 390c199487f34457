(** How deep the component parser calls itself. *)
From Verif Require Import Str Spec ValueTypes Property Component Calendar Nom Parser SpecDoc SpecItems SpecGrammar.

(** [deep d i]: reading a component at the start of [i] takes [d] nested calls of the component parser (or more).
    [body_deep n d i]: the same for the inside of a component with the name [n].  At every place inside that is not an end,
    a component is tried first, so there is a call even if the line is a property. *)
Inductive deep {U : Unicode} : nat -> str -> Prop :=
| dp_call : forall i, deep 1 i
| dp_inside : forall d kb n i j, map lower_ascii kb = lit "begin:" -> name_ok n -> name_ends i -> after_breaks i j ->
    body_deep n d j -> deep (S d) (kb ++ n ++ i)
with body_deep {U : Unicode} : str -> nat -> str -> Prop :=
| bd_here : forall n d i, ~ ends i -> deep d i -> body_deep n d i
| bd_comp : forall n d i c j, comp_reads i c j -> body_deep n d j -> body_deep n d i
| bd_prop : forall n d i p j, ~ ends i -> ~ begins i \/ comp_stuck i -> item_reads i p j -> j <> i -> body_deep n d j -> body_deep n d i.
Definition text_deep {U : Unicode} (d : nat) (i : str) : Prop := exists j, after_breaks i j /\ deep d j.

(** The nesting of a document: a component without content counts one, one with lines only two. *)
Fixpoint levels (t : wtree) : nat :=
  match t with W _ its => S (fold_right (fun x m => Nat.max (match x with inl _ => 1 | inr t => levels t end) m) 0 its) end.
(** The shortest text of its depth: [k + 2] calls. *)
Fixpoint begun (k : nat) : str := match k with 0 => lit "BEGIN:" | S k => lit "BEGIN:" ++ [LF] ++ begun k end.
