(** Documents that differ in some lines in one place, and calendars that differ in what was read from these: specification. *)
From Verif Require Import Str Spec ValueTypes Property Component Calendar Nom Parser SpecBuild SpecTree SpecDoc SpecConv SpecRound.

(** The lines [old] in one place of a document, at any depth, replaced by the lines [new]. *)
Inductive doc_edit (old new : list wline) : wtree -> wtree -> Prop :=
| de_here : forall n a b, doc_edit old new (W n (a ++ map inl old ++ b)) (W n (a ++ map inl new ++ b))
| de_below : forall n a b t u, doc_edit old new t u -> doc_edit old new (W n (a ++ inr t :: b)) (W n (a ++ inr u :: b)).
(** The text of lines. *)
Definition lines_text (y : style) (ls : list wline) (m : str) : Prop :=
  exists ss, Forall2 (fun l s => exists e, line_end y e /\ s = wline_text l ++ e) ls ss /\ m = concat ss.

(** The properties of a multi-valued name. *)
Definition multi_at (i : inner) (k : str) : list property := match map_get k (i_multi i) with Some l => l | None => [] end.
(** Components that differ in one place: the properties with other names are the same, those read from the lines are the last one of
    a name, or all of them for a multi-valued name, with the same properties [a] before and [b] after the place, and all sub-components
    are the same; or all properties and all sub-components but one are the same. *)
Definition others (l : list property) (k : str) : Prop := forall p, In p l -> p_key p <> k.
Inductive inner_near (old new : list property) : inner -> inner -> Prop :=
| near_here : forall i j a b,
    (forall k, others (old ++ new) k -> map_get k (i_props i) = map_get k (i_props j) /\ map_get k (i_multi i) = map_get k (i_multi j)) ->
    (forall k, ~ multi_name k -> map_get k (i_props i) = last_with k (a ++ old ++ b) /\ map_get k (i_props j) = last_with k (a ++ new ++ b)) ->
    (forall k, multi_name k -> multi_at i k = filter (fun p => str_eqb (p_key p) k) (a ++ old ++ b)
       /\ multi_at j k = filter (fun p => str_eqb (p_key p) k) (a ++ new ++ b)) ->
    i_comps i = i_comps j -> inner_near old new i j
| near_below : forall ps ms a n x z b, inner_near old new x z ->
    inner_near old new (mk_inner ps ms (a ++ (n, x) :: b)) (mk_inner ps ms (a ++ (n, z) :: b)).
Definition cc_near (old new : list property) (x y : cal_component) : Prop :=
  match x, y with
  | CEvent i, CEvent j | CTodo i, CTodo j | CVenue i, CVenue j => inner_near old new i j
  | COther (k, i), COther (l, j) => k = l /\ inner_near old new i j
  | _, _ => False
  end.
Inductive cal_near (old new : list property) : calendar -> calendar -> Prop :=
| near_props : forall a b cs, cal_near old new (mk_calendar (a ++ old ++ b) cs) (mk_calendar (a ++ new ++ b) cs)
| near_comp : forall ps a x y b, cc_near old new x y -> cal_near old new (mk_calendar ps (a ++ x :: b)) (mk_calendar ps (a ++ y :: b)).
