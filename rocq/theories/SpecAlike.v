(** Which differences between texts reading does not see: specification. *)
From Verif Require Import Str Spec ValueTypes Property Chrono DateTime Component Calendar Nom Parser SpecBuild SpecDate SpecTree SpecDoc SpecConv SpecAccess.

(** ** Equal components *)

(** The derived equality of properties, components and calendars: the same entries of maps, in whatever order their
    parameters are kept. *)
Inductive opt_rel {A B} (R : A -> B -> Prop) : option A -> option B -> Prop :=
| or_none : opt_rel R None None
| or_some : forall a b, R a b -> opt_rel R (Some a) (Some b).
Inductive same_inner : inner -> inner -> Prop :=
| Same_inner : forall i j,
    (forall k, opt_rel reordered (map_get k (i_props i)) (map_get k (i_props j))) ->
    (forall k, opt_rel (Forall2 reordered) (map_get k (i_multi i)) (map_get k (i_multi j))) ->
    Forall2 (fun c d => fst c = fst d /\ same_inner (snd c) (snd d)) (i_comps i) (i_comps j) ->
    same_inner i j.
Definition same_cc (c d : cal_component) : Prop :=
  match c, d with
  | CTodo i, CTodo j | CEvent i, CEvent j | CVenue i, CVenue j => same_inner i j
  | COther o, COther p => fst o = fst p /\ same_inner (snd o) (snd p)
  | _, _ => False
  end.
Definition same_cal (c d : calendar) : Prop :=
  Forall2 reordered (c_props c) (c_props d) /\ Forall2 same_cc (c_comps c) (c_comps d).

(** ** Parsed components that say the same *)

(** The value of the last parameter of a name. *)
Definition param_says (q : pprop) (k v : str) : Prop :=
  exists a, last_of pp_key k (pr_params q) a /\ v = match pp_val a with Some w => w | None => [] end.
Definition alike_prop (q r : pprop) : Prop :=
  pr_name q = pr_name r /\ pr_val q = pr_val r /\ forall k v, param_says q k v <-> param_says r k v.
(** Under each name the same last property, or the same properties in the same order if the name is multi-valued; the same
    sub-components in the same order. *)
Inductive alike : pcomp -> pcomp -> Prop :=
| Alike : forall n ps qs cs ds,
    (forall k, ~ multi_name k ->
       (forall q, last_of pr_name k ps q -> exists r, last_of pr_name k qs r /\ alike_prop q r)
       /\ (forall r, last_of pr_name k qs r -> exists q, last_of pr_name k ps q)) ->
    (forall k, multi_name k -> exists l m, picked pr_name k ps l /\ picked pr_name k qs m /\ Forall2 alike_prop l m) ->
    Forall2 alike cs ds ->
    alike (mk_pcomp n ps cs) (mk_pcomp n qs ds).

(** ** Documents with their lines in another order *)

Definition line_name (l : wline) : str := match l with LValue k _ _ => k | LBare k => k end.
(** Items whose order does not matter: lines with different names, a line and a sub-component. *)
Definition apart (x y : wline + wtree) : Prop :=
  match x, y with
  | inl l, inl m => line_name l <> line_name m
  | inr _, inr _ => False
  | _, _ => True
  end.
Inductive shuffled : wtree -> wtree -> Prop :=
| sh_swap : forall n a x y b, apart x y -> shuffled (W n (a ++ x :: y :: b)) (W n (a ++ y :: x :: b))
| sh_sub : forall n a t u b, shuffled t u -> shuffled (W n (a ++ inr t :: b)) (W n (a ++ inr u :: b))
| sh_refl : forall t, shuffled t t
| sh_trans : forall t u v, shuffled t u -> shuffled u v -> shuffled t v.
