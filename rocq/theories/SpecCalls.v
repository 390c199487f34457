(** The parts of a document: specification. *)
From Verif Require Import Str ValueTypes Property Chrono DateTime Component Calendar Nom Parser SpecDoc.

(** The number of its components, itself included, and lines. *)
Fixpoint parts (t : wtree) : nat :=
  match t with W n its => S (list_sum (map (fun x => match x with inl _ => 1 | inr t => parts t end) its)) end.
