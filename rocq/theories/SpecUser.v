(** Calendars that differ only in the texts that were put in: specification. *)
From Verif Require Import Str ValueTypes Property Chrono DateTime Component Calendar SpecBuild SpecRound SpecAlike SpecExact.

(** Calendars of the same structure whose properties are related by [W] place by place. *)
Inductive inner_rel (W : property -> property -> Prop) : inner -> inner -> Prop :=
| Inner_rel : forall i j,
    (forall k, opt_rel W (map_get k (i_props i)) (map_get k (i_props j))) ->
    (forall k, opt_rel (Forall2 W) (map_get k (i_multi i)) (map_get k (i_multi j))) ->
    Forall2 (fun c d => fst c = fst d /\ inner_rel W (snd c) (snd d)) (i_comps i) (i_comps j) ->
    inner_rel W i j.
Definition cc_rel (W : property -> property -> Prop) (c d : cal_component) : Prop :=
  match c, d with
  | CTodo i, CTodo j | CEvent i, CEvent j | CVenue i, CVenue j => inner_rel W i j
  | COther o, COther p => fst o = fst p /\ inner_rel W (snd o) (snd p)
  | _, _ => False
  end.
Definition cal_rel (W : property -> property -> Prop) (c d : calendar) : Prop :=
  Forall2 W (c_props c) (c_props d) /\ Forall2 (cc_rel W) (c_comps c) (c_comps d).

(** The same name and parameters, and the same value unless it is TEXT. *)
Definition text_only {U : Unicode} (p q : property) : Prop :=
  p_key p = p_key q /\ p_params p = p_params q /\ (~ is_text p -> p_val p = p_val q).
(** What is read from related properties: the same (DTSTAMP and UID that are generated), or what each of two related ones is read as. *)
Definition read_rel {U : Unicode} (W : property -> property -> Prop) (q q' : property) : Prop :=
  q = q' \/ exists p p', W p p' /\ reread p q /\ reread p' q'.

(** The same, with the value the same also unless the name is one of [K]. *)
Definition differ_in {U : Unicode} (K : str -> Prop) (p q : property) : Prop :=
  p_key p = p_key q /\ p_params p = p_params q /\ (~ (is_text p /\ K (p_key p)) -> p_val p = p_val q).
(** Builder calls that do the same but for the properties, which are related by [W]. *)
Definition call_rel (W : property -> property -> Prop) (c d : call) : Prop :=
  Forall2 W (sets c) (sets d) /\ Forall2 W (multis c) (multis d)
  /\ Forall2 (fun o p => fst o = fst p /\ inner_rel W (snd o) (snd p)) (subs c) (subs d).
