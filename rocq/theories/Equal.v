(** Equality ([==]): the derived [PartialEq] of properties, components and calendars, and of the parsed types. *)
From Verif Require Import Str Property Chrono DateTime Component Calendar Parser ZeroCopy.

(** [PartialEq] of [Vec] (std): the same length, and the elements are equal one by one. *)
Fixpoint zip_eqb {A B} (f : A -> B -> bool) (l : list A) (m : list B) : bool :=
  match l, m with a :: l', b :: m' => f a b && zip_eqb f l' m' | _, _ => true end.
Definition vec_eqb {A B} (f : A -> B -> bool) (l : list A) (m : list B) : bool :=
  Nat.eqb (length l) (length m) && zip_eqb f l m.
(** [PartialEq] of [HashMap] (std): the same length, and every entry of the first is looked up in the second. *)
Definition hm_eqb {V} (f : V -> V -> bool) (a b : list (str * V)) : bool :=
  Nat.eqb (length a) (length b)
  && forallb (fun '(k, v) => match map_get k b with Some w => f v w | None => false end) a.
(** [PartialEq] of [BTreeMap] (std): the same length, and the entries are equal one by one in ascending order. *)
Definition bt_eqb {V W} (f : V -> W -> bool) (a : list (str * V)) (b : list (str * W)) : bool :=
  vec_eqb (fun x y => str_eqb (fst x) (fst y) && f (snd x) (snd y)) a b.

(** [Property], src/properties.rs:46-52: key, value, parameters ([Parameter], 10-15; its key is the key of the map). *)
Definition prop_eqb (p q : property) : bool :=
  str_eqb (p_key p) (p_key q) && (str_eqb (p_val p) (p_val q) && hm_eqb str_eqb (p_params p) (p_params q)).
(** [InnerComponent], src/components.rs:23-28, and [Other], src/components/other.rs:3-7: name and component. *)
Fixpoint inner_eqb (i j : inner) {struct i} : bool :=
  match i with
  | mk_inner ps ms cs =>
      bt_eqb prop_eqb ps (i_props j)
      && (bt_eqb (vec_eqb prop_eqb) ms (i_multi j)
      && (Nat.eqb (length cs) (length (i_comps j))
          && (fix go (cs ds : list (str * inner)) : bool :=
                match cs, ds with
                | (n, c) :: cs', (m, d) :: ds' => str_eqb n m && inner_eqb c d && go cs' ds'
                | _, _ => true
                end) cs (i_comps j)))
  end.
(** [CalendarComponent], src/calendar/calendar_component.rs:9-24; [Event], [Todo] and [Venue] derive theirs (src/components/event.rs:3,
    todo.rs:6, venue.rs:4). *)
Definition cc_eqb (c d : cal_component) : bool :=
  match c, d with
  | CTodo i, CTodo j | CEvent i, CEvent j | CVenue i, CVenue j => inner_eqb i j
  | COther o, COther p => str_eqb (fst o) (fst p) && inner_eqb (snd o) (snd p)
  | _, _ => false
  end.
(** [Calendar], src/calendar.rs:63-67. *)
Definition cal_eqb (c d : calendar) : bool :=
  vec_eqb prop_eqb (c_props c) (c_props d) && vec_eqb cc_eqb (c_comps c) (c_comps d).

(** The parsed types: [Parameter], src/parser/parameters.rs:18-23, [Property], src/parser/properties.rs:46-53, [Component],
    src/parser/components.rs:36-42, over [ParseString] ([cow_eqb]). *)
Definition zparam_eqb (p q : zparam) : bool :=
  cow_eqb (zp_key p) (zp_key q)
  && match zp_val p, zp_val q with Some v, Some w => cow_eqb v w | None, None => true | _, _ => false end.
Definition zprop_eqb (p q : zprop) : bool :=
  cow_eqb (zr_name p) (zr_name q) && (cow_eqb (zr_val p) (zr_val q) && vec_eqb zparam_eqb (zr_params p) (zr_params q)).
Fixpoint zcomp_eqb (c d : zcomp) {struct c} : bool :=
  match c with
  | mk_zcomp n ps cs =>
      cow_eqb n (zc_name d)
      && (vec_eqb zprop_eqb ps (zc_props d)
      && (Nat.eqb (length cs) (length (zc_comps d))
          && (fix go (cs ds : list zcomp) : bool :=
                match cs, ds with
                | c :: cs', d :: ds' => zcomp_eqb c d && go cs' ds'
                | _, _ => true
                end) cs (zc_comps d)))
  end.
