(** Where a text was cut off. *)
From Verif Require Import Str Spec ValueTypes Property Chrono DateTime Component Calendar Nom Parser SpecDoc SpecCut.

(** The document [W n its], cut off to [u], ends inside of a sub-component (after the word BEGIN of its first line and before the
    end of its last line), or in its own last line after the word END. *)
Definition doc_within (n : str) (its : list (wline + wtree)) (u : str) : Prop :=
  exists its1 v, u = lit "BEGIN:" ++ n ++ [CR; LF] ++ concat (map strict_item its1) ++ v
    /\ ((exists t its2 z, its = its1 ++ inr t :: its2 /\ strict_text t = v ++ z /\ 5 <= length v /\ 2 < length z)
        \/ its1 = its /\ exists w, v = lit "END" ++ w).
(** The same for a written calendar: its first line and its properties, [head], its components, [ss], and its last line. *)
Definition cal_within (head : str) (ss : list str) (s0 : str) : Prop :=
  (exists l s r v z, ss = l ++ s :: r /\ s0 = head ++ concat l ++ v /\ s = v ++ z /\ 5 <= length v /\ 2 < length z)
  \/ exists w, s0 = head ++ concat ss ++ lit "END" ++ w.

(** A document with the name [m] in place of the name [n] of its component [W n its] in the last line of that component. *)
Definition mislabelled (k : str) (its1 : list (wline + wtree)) (n : str) (its : list (wline + wtree)) (m : str) (its2 : list (wline + wtree)) : str :=
  lit "BEGIN:" ++ k ++ [CR; LF] ++ concat (map strict_item its1)
  ++ (lit "BEGIN:" ++ n ++ [CR; LF] ++ concat (map strict_item its) ++ lit "END:" ++ m ++ [CR; LF])
  ++ concat (map strict_item its2) ++ lit "END:" ++ k ++ [CR; LF].
(** A property with a name only. *)
Definition named_only (x : str) : list pprop := match x with [] => [] | _ => [mk_pprop x [] []] end.
(** A text that starts with the word END or the word BEGIN. *)
Definition bold_start (x : str) : Prop := has_prefix (lit "END") x \/ has_prefix (lit "BEGIN") x.
