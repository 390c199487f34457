(** Which lines of the written text a change of a calendar changes: specification. *)
From Verif Require Import Str Property Chrono DateTime Component Calendar.

(** Whole lines: nothing, or a text that ends with a line end. *)
Definition whole_lines (s : str) : Prop := s = [] \/ exists t, s = t ++ crlf.
(** [s'] is [s] with the lines [new] in place of the lines [old]; all before and after is as it was. *)
Definition changed (old new s s' : str) : Prop :=
  whole_lines old /\ whole_lines new /\ exists a b, s = (a ++ crlf) ++ old ++ b /\ s' = (a ++ crlf) ++ new ++ b.

(** A change of a component in one place, with the texts of what was there and of what is there then: a property is set that was not
    set, or replaces one of the same name; a multi-property or a sub-component is added (one that brings its own DTSTAMP and UID
    everywhere); or a sub-component is changed. *)
Inductive edited {U : Unicode} (e : env) : str -> str -> inner -> inner -> Prop :=
| ed_set : forall i q new, map_get (p_key q) (i_props i) = None -> p_key q <> lit "DTSTAMP" -> p_key q <> lit "UID" ->
    prop_write q = Ret new -> edited e [] new i (append_property i q)
| ed_replace : forall i p q old new, map_get (p_key q) (i_props i) = Some p -> prop_write p = Ret old -> prop_write q = Ret new ->
    edited e old new i (append_property i q)
| ed_multi : forall i q new, prop_write q = Ret new -> edited e [] new i (insert_multi i q)
| ed_sub : forall i o new, (forall n, inner_write e (fst o) (snd o) n = Ret (new, n)) -> edited e [] new i (append_component i o)
| ed_in : forall ps ms a k c d b old new, edited e old new c d ->
    edited e old new (mk_inner ps ms (a ++ (k, c) :: b)) (mk_inner ps ms (a ++ (k, d) :: b)).
(** Of a calendar: a property is added, or one of its components is changed. *)
Inductive cal_edited {U : Unicode} (e : env) : str -> str -> calendar -> calendar -> Prop :=
| ce_prop : forall c q new, prop_write q = Ret new -> cal_edited e [] new c (cal_append_property c q)
| ce_in : forall ps a x y b old new, cc_kind x = cc_kind y -> edited e old new (cc_inner x) (cc_inner y) ->
    cal_edited e old new (mk_calendar ps (a ++ x :: b)) (mk_calendar ps (a ++ y :: b)).
