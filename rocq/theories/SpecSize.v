(** How long the text is: specification. *)
From Verif Require Import Str Spec ValueTypes Property Chrono DateTime Component Calendar.

(** The octets of the names, the parameters and the values. *)
Definition prop_data (p : property) : nat :=
  octets (p_key p) + list_sum (map (fun q => octets (fst q) + octets (snd q)) (p_params p)) + octets (p_val p).
Fixpoint inner_data (i : inner) : nat :=
  match i with
  | mk_inner ps ms cs => list_sum (map (fun e => prop_data (snd e)) ps) + list_sum (map (fun e => list_sum (map prop_data (snd e))) ms)
                         + list_sum (map (fun o => octets (fst o) + inner_data (snd o)) cs)
  end.
Definition cc_data (c : cal_component) : nat := octets (cc_kind c) + inner_data (cc_inner c).
Definition cal_data (c : calendar) : nat := list_sum (map prop_data (c_props c)) + list_sum (map cc_data (c_comps c)).
(** How many components, properties and parameters there are. *)
Definition prop_items (p : property) : nat := 1 + length (p_params p).
Fixpoint inner_items (i : inner) : nat :=
  match i with
  | mk_inner ps ms cs => 1 + list_sum (map (fun e => prop_items (snd e)) ps) + list_sum (map (fun e => list_sum (map prop_items (snd e))) ms)
                         + list_sum (map (fun o => inner_items (snd o)) cs)
  end.
Definition cal_items (c : calendar) : nat :=
  1 + list_sum (map prop_items (c_props c)) + list_sum (map (fun x => inner_items (cc_inner x)) (c_comps c)).
