(** Component trees: what a serialized component contains, in which order. *)
From Verif Require Import Str Spec ValueTypes Property Chrono DateTime Component Alarm Calendar Nom Parser
  SpecBuild SpecDate.

Inductive tree := Node (name : str) (props : list property) (subs : list tree).
Definition t_name (t : tree) := match t with Node n _ _ => n end.
Definition t_props (t : tree) := match t with Node _ p _ => p end.
Definition t_subs (t : tree) := match t with Node _ _ c => c end.

(** The text of a tree: a BEGIN line, the properties, the sub-components, an END line. *)
Inductive text_of {U : Unicode} : tree -> str -> Prop :=
| Text_of : forall k ps ts cs ss,
    Forall2 (fun p t => prop_write p = Ret t) ps ts ->
    Forall2 text_of cs ss ->
    text_of (Node k ps cs)
      (lit "BEGIN:" ++ k ++ [CR; LF] ++ concat ts ++ concat ss ++ lit "END:" ++ k ++ [CR; LF]).

(** Lexicographic order of texts by code point (the same as by UTF-8 octet, [StrFacts.utf8_order]). *)
Inductive str_lt : str -> str -> Prop :=
| lt_end : forall c r, str_lt [] (c :: r)
| lt_head : forall c d r s, (c < d)%N -> str_lt (c :: r) (d :: s)
| lt_tail : forall c r s, str_lt r s -> str_lt (c :: r) (c :: s).
Fixpoint ascending (ks : list str) : Prop :=
  match ks with [] => True | k :: r => Forall (str_lt k) r /\ ascending r end.

(** The tree written for a component: its own properties, each once and in ascending order of
    keys, with a generated DTSTAMP before them if there is none and a generated UID after them if
    there is none; then the multi-properties, grouped by key in ascending order; then the
    sub-components in insertion order. *)
Inductive arranged (e : env) : str -> inner -> tree -> Prop :=
| Arranged : forall k i stamp ps u gs cs,
    (if map_get (lit "DTSTAMP") (i_props i) then stamp = []
     else exists m, stamp = [utc_prop "DTSTAMP" (now_at e m)]) ->
    ascending (map p_key ps) ->
    (forall p, In p ps <-> map_get (p_key p) (i_props i) = Some p) ->
    (if map_get (lit "UID") (i_props i) then u = []
     else exists m, u = [text_prop "UID" (fmt_uuid (uuid_at e m))]) ->
    ascending (map fst gs) ->
    (forall key g, In (key, g) gs <-> map_get key (i_multi i) = Some g) ->
    Forall2 (fun o t => arranged e (fst o) (snd o) t) (i_comps i) cs ->
    arranged e k i (Node k (stamp ++ ps ++ u ++ flat_map snd gs) cs).

(** Components that can be made: by builder calls, with sub-components that can be made, or by
    parsing. *)
Inductive made : inner -> Prop :=
| made_new : made inner_new
| made_call : forall i c, made i -> Forall (fun o => made (snd o)) (subs c) -> made (do_call i c)
| made_parsed : forall c, made (conv_inner c).

(** The clock shows a date chrono can represent. *)
Definition clock_ok (e : env) : Prop :=
  forall n, real_dt (now_at e n) /\ (-262143 <= year (date_of (now_at e n)) <= 262142)%Z.

(** How often a key occurs. *)
Definition count_key (k : string) (ps : list property) : nat :=
  length (filter (fun p => str_eqb (p_key p) (lit k)) ps).
(** DTSTAMP and UID exactly once in every component of the tree. *)
Inductive stamped_once : tree -> Prop :=
| Stamped_once : forall k ps cs,
    count_key "DTSTAMP" ps = 1 -> count_key "UID" ps = 1 -> Forall stamped_once cs ->
    stamped_once (Node k ps cs).
(** No multi-property is called DTSTAMP or UID. *)
Inductive no_multi_stamp : inner -> Prop :=
| No_multi_stamp : forall i,
    map_get (lit "DTSTAMP") (i_multi i) = None -> map_get (lit "UID") (i_multi i) = None ->
    Forall (fun o => no_multi_stamp (snd o)) (i_comps i) -> no_multi_stamp i.
