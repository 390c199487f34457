(** Texts that were cut off. *)
From Verif Require Import Str Spec ValueTypes Property Component Calendar Nom Parser SpecDoc.

(** Documents as they are written, but for folding: upper-case keywords, CR LF after each line. *)
Fixpoint strict_text (t : wtree) : str :=
  match t with
  | W n its => lit "BEGIN:" ++ n ++ [CR; LF]
      ++ concat (map (fun x => match x with inl l => wline_text l ++ [CR; LF] | inr t => strict_text t end) its)
      ++ lit "END:" ++ n ++ [CR; LF]
  end.
Definition strict_item (x : wline + wtree) : str := match x with inl l => wline_text l ++ [CR; LF] | inr t => strict_text t end.
(** No line break inside of a line. *)
Inductive single : wtree -> Prop :=
| Single : forall n its, Forall (either (fun l => ~ In LF (wline_text l)) single) its -> single (W n its).
