(** Documents whose lines end in different ways. *)
From Verif Require Import Str Spec ValueTypes Property Chrono DateTime Component Calendar Nom Parser SpecDoc.

(** Line breaks, each of its own style. *)
Definition brk (y : style) : str := match y with CrLf => [CR; LF] | Lf => [LF] end.
Definition brks (ys : list style) : str := concat (map brk ys).
(** The breaks after a line: the first with a mark that says if the line has a value. *)
Definition tagged (v : bool) (ys : list style) : list (bool * style) :=
  match ys with [] => [] | y :: r => (v, y) :: map (fun z => (false, z)) r end.
Definition valued (l : wline) : bool := match l with LValue _ _ _ => true | LBare _ => false end.
(** The text of a line has no LF in it, and no CR at its end. *)
Definition tidy (l : wline) : Prop := ~ In LF (wline_text l) /\ forall x, wline_text l <> x ++ [CR].

(** [mixed t fs s]: [s] is a text of the document [t], each line with one or more breaks of either style; [fs] are all the
    breaks of the text in order. *)
Inductive mixed : wtree -> list (bool * style) -> str -> Prop :=
| mx_tree : forall n its kb ke b e fs s, map lower_ascii kb = lit "begin:" -> map lower_ascii ke = lit "end:" -> b <> [] -> e <> [] ->
    mixed_items its fs s -> mixed (W n its) (tagged false b ++ fs ++ tagged false e) (kb ++ n ++ brks b ++ s ++ ke ++ n ++ brks e)
with mixed_items : list (wline + wtree) -> list (bool * style) -> str -> Prop :=
| mx_nil : mixed_items [] [] []
| mx_line : forall l ys its fs s, tidy l -> ys <> [] -> mixed_items its fs s ->
    mixed_items (inl l :: its) (tagged (valued l) ys ++ fs) (wline_text l ++ brks ys ++ s)
| mx_sub : forall t its fs s fs' s', mixed t fs s -> mixed_items its fs' s' -> mixed_items (inr t :: its) (fs ++ fs') (s ++ s').

(** After a line with a value that ends in LF there is no CR LF any more. *)
Definition lf_final (fs : list (bool * style)) : Prop := forall a b, fs = a ++ (true, Lf) :: b -> ~ In CrLf (map snd b).
