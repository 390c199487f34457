(** Exact versions of statements that hold only in part: specification. *)
From Verif Require Import Str Spec ValueTypes Property Chrono DateTime Component Calendar Nom Parser SpecError.

(** The physical lines of a line that is cut into [ps] and [last]: all but the first start with a space. *)
Definition physical (ps : list str) (last : str) : list str :=
  match ps with [] => [last] | p :: r => p :: map (cons SP) (r ++ [last]) end.
(** One content line: a line break at the end and no other. *)
Definition one_line (s : str) : Prop := exists u, s = u ++ [CR; LF] /\ ~ In LF u.
(** Every line feed has a space or a tab directly after it. *)
Definition lf_blank (s : str) : Prop := forall a b, s = a ++ LF :: b -> exists c r, b = c :: r /\ blank c.
(** The three properties that every new calendar has. *)
Definition three_props : list pprop :=
  [mk_pprop (lit "VERSION") (lit "2.0") []; mk_pprop (lit "PRODID") (lit "ICALENDAR-RS") []; mk_pprop (lit "CALSCALE") (lit "GREGORIAN") []].
(** What stands before [sub] in its line. *)
Definition before_in_line (input sub here : str) : Prop :=
  exists above, input = above ++ here ++ sub /\ (above = [] \/ exists x, above = x ++ [LF]) /\ ~ In LF here.
