(** How writing fails: which lines cannot be folded, and which line of a calendar is the first of them. *)
From Verif Require Import Str Spec ValueTypes Property Chrono DateTime Component Calendar Nom Parser
  SpecBuild SpecDate SpecTree SpecText SpecFold.

(** ** Lines *)

(** After its part [a], with [n] as the next place to try, the folding of [l] panics: the place found lies before the end of [a],
    or none is found at all. *)
Inductive cut_panics (l : str) : str -> nat -> Prop :=
| kp_before : forall a n r q, l = a ++ r -> 75 < octets r -> cut_place l n q -> q < octets a -> cut_panics l a n
| kp_none : forall a n r, l = a ++ r -> 75 < octets r -> (forall q, ~ cut_place l n q) -> cut_panics l a n
| kp_later : forall a n p r, l = a ++ p ++ r -> 75 < octets (p ++ r) -> cut_place l n (octets (a ++ p)) ->
    cut_panics l (a ++ p) (octets (a ++ p) + 74) -> cut_panics l a n.
(** The folding of [l] goes on for ever: the place found is the end of [a], again and again. *)
Inductive cut_circles (l : str) : str -> nat -> Prop :=
| kc_here : forall a r, l = a ++ r -> 75 < octets r -> cut_place l (octets a + 74) (octets a) ->
    cut_circles l a (octets a + 74)
| kc_later : forall a n p r, l = a ++ p ++ r -> 75 < octets (p ++ r) -> cut_place l n (octets (a ++ p)) ->
    cut_circles l (a ++ p) (octets (a ++ p) + 74) -> cut_circles l a n.
Definition line_returns (l : str) : Prop := exists s, cut_line l s.
Definition line_panics (l : str) : Prop := cut_panics l [] 75.
Definition line_circles (l : str) : Prop := cut_circles l [] 75.

(** ** Components and calendars *)

(** The properties of a component in the order of writing: its own in ascending order of names, the multi-properties,
    those of the sub-components.  (The generated DTSTAMP and UID are not folded.) *)
Inductive in_order : inner -> list property -> Prop :=
| In_order : forall i ps gs ls,
    ascending (map p_key ps) -> (forall p, In p ps <-> map_get (p_key p) (i_props i) = Some p) ->
    ascending (map fst gs) -> (forall key g, In (key, g) gs <-> map_get key (i_multi i) = Some g) ->
    Forall2 (fun o l => in_order (snd o) l) (i_comps i) ls ->
    in_order i (ps ++ flat_map snd gs ++ concat ls).
Definition cal_in_order (c : calendar) (ps : list property) : Prop :=
  exists ls, Forall2 (fun x l => in_order (cc_inner x) l) (c_comps c) ls /\ ps = c_props c ++ concat ls.
(** Of a parsed component: in the order of the text, sub-components last. *)
Inductive pin_order : pcomp -> list pprop -> Prop :=
| Pin_order : forall k ps cs ls, Forall2 pin_order cs ls -> pin_order (mk_pcomp k ps cs) (ps ++ concat ls).

(** All lines can be folded; the first that cannot is a [bad] one.  [line] relates a property to its line. *)
Definition all_return {A} (line : A -> str -> Prop) (ps : list A) : Prop :=
  Forall (fun p => exists l, line p l /\ line_returns l) ps.
Definition first_bad {A} (line : A -> str -> Prop) (bad : str -> Prop) (ps : list A) : Prop :=
  exists a p b l, ps = a ++ p :: b /\ all_return line a /\ line p l /\ bad l.
