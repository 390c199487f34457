(** Conversion of parsed components, and the round trip through text: specification. *)
From Verif Require Import Str Spec ValueTypes Property Chrono DateTime Component Calendar Nom Parser
  SpecBuild SpecDate SpecTree SpecDoc.

(** ** Conversion *)

(** [x] is the last element of [l] with the key [k]. *)
Definition last_of {A} (key : A -> str) (k : str) (l : list A) (x : A) : Prop :=
  exists a b, l = a ++ x :: b /\ key x = k /\ Forall (fun y => key y <> k) b.
(** The elements with the key [k], in order. *)
Inductive picked {A} (key : A -> str) (k : str) : list A -> list A -> Prop :=
| pi_nil : picked key k [] []
| pi_take : forall x l r, key x = k -> picked key k l r -> picked key k (x :: l) (x :: r)
| pi_skip : forall x l r, key x <> k -> picked key k l r -> picked key k (x :: l) r.

(** The names treated as multi-valued. *)
Definition multi_names : list string :=
  ["ATTACH"; "ATTENDEE"; "CATEGORIES"; "COMMENT"; "CONTACT"; "EXDATE"; "FREEBUSY"; "IANA-PROP";
   "RDATE"; "RELATED"; "RESOURCES"; "RSTATUS"; "X-PROP"]%string.
Definition multi_name (k : str) : Prop := exists m, In m multi_names /\ k = lit m.
(** The names RFC 5545 (section 3.6) allows to occur more than once in a component. *)
Definition rfc_repeatable : list string :=
  ["ATTACH"; "ATTENDEE"; "CATEGORIES"; "COMMENT"; "CONTACT"; "DESCRIPTION"; "EXDATE"; "FREEBUSY"; "RDATE";
   "RELATED-TO"; "REQUEST-STATUS"; "RESOURCES"; "TZNAME"]%string.

(** The property [p] says what the parsed property [q] says: of parameters with the same name, the last counts,
    and a parameter without a value has the empty value. *)
Definition says (q : pprop) (p : property) : Prop :=
  p_key p = pr_name q /\ p_val p = pr_val q /\ NoDup (map fst (p_params p))
  /\ forall k v, In (k, v) (p_params p) <->
       exists a, last_of pp_key k (pr_params q) a /\ v = match pp_val a with Some w => w | None => [] end.

(** The component [i] keeps what the parsed component [c] says. *)
Inductive keeps : pcomp -> inner -> Prop :=
| Keeps : forall n ps cs i,
    (forall k, ~ multi_name k ->
       match map_get k (i_props i) with
       | Some p => exists q, last_of pr_name k ps q /\ says q p
       | None => Forall (fun q => pr_name q <> k) ps
       end /\ map_get k (i_multi i) = None) ->
    (forall k, multi_name k ->
       match map_get k (i_multi i) with
       | Some l => exists qs, picked pr_name k ps qs /\ qs <> [] /\ Forall2 says qs l
       | None => Forall (fun q => pr_name q <> k) ps
       end /\ map_get k (i_props i) = None) ->
    Forall2 (fun d o => fst o = pc_name d /\ keeps d (snd o)) cs (i_comps i) ->
    keeps (mk_pcomp n ps cs) i.
