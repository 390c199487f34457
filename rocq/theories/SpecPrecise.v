(** Exact conditions for claims that hold only sometimes: specification. *)
From Verif Require Import Str Spec ValueTypes Property Chrono DateTime Component Calendar Nom Parser SpecTree SpecConv SpecMore.

(** How many properties of a name are written for a component: one, and the multi-properties of that name. *)
Definition multis (k : string) (i : inner) : list property :=
  match map_get (lit k) (i_multi i) with Some g => g | None => [] end.
Inductive stamps_counted : inner -> tree -> Prop :=
| Stamps_counted : forall i k ps cs,
    count_key "DTSTAMP" ps = 1 + length (multis "DTSTAMP" i) -> count_key "UID" ps = 1 + length (multis "UID" i) ->
    Forall2 (fun o t => stamps_counted (snd o) t) (i_comps i) cs -> stamps_counted i (Node k ps cs).

(** What a parameter says: without a value, the empty text. *)
Definition said (a : pparam) : str := match pp_val a with Some w => w | None => [] end.
(** The last VALUE parameter of a parsed property is DATE. *)
Definition says_date (q : pprop) : Prop := exists a, last_of pp_key (lit "VALUE") (pr_params q) a /\ pp_val a = Some (lit "DATE").
Definition no_tzid (q : pprop) : Prop := Forall (fun a => pp_key a <> lit "TZID") (pr_params q).
(** The first TZID has a value, and the last says the same. *)
Definition one_tzid (q : pprop) : Prop := exists a b w,
  first_of pp_key (lit "TZID") (pr_params q) a /\ last_of pp_key (lit "TZID") (pr_params q) b /\ pp_val a = Some w /\ said b = w.
(** The first TZID has no value. *)
Definition bare_tzid (q : pprop) : Prop := exists a, first_of pp_key (lit "TZID") (pr_params q) a /\ pp_val a = None.
