(** What is read back from serialized text, whatever the TEXT values and however often a name occurs: specification. *)
From Verif Require Import Str Spec ValueTypes Property Chrono DateTime Component Calendar Nom Parser
  SpecBuild SpecDate SpecTree SpecDoc SpecConv SpecRound.

(** What a TEXT value is read back as: [:] for a backslash and [:], a line feed for a backslash and [N] or [n], all else
    as it was. *)
Inductive garbled : str -> str -> Prop :=
| ga_nil : garbled [] []
| ga_colon : forall r t, garbled r t -> garbled (BSL :: COLON :: r) (COLON :: t)
| ga_lf : forall d r t, d = 78%N \/ d = 110%N -> garbled r t -> garbled (BSL :: d :: r) (LF :: t)
| ga_keep : forall c r t, ~ (c = BSL /\ exists d q, r = d :: q /\ In d [COLON; 78%N; 110%N]) ->
    garbled r t -> garbled (c :: r) (c :: t).

(** [q] is what is read back from the text of [p]. *)
Definition reread {U : Unicode} (p q : property) : Prop :=
  p_key q = p_key p /\ p_params q = p_params p
  /\ (is_text p -> garbled (p_val p) (p_val q)) /\ (~ is_text p -> p_val q = p_val p).

(** Names and parameters the parser takes; values that are not TEXT without CR LF and without a line break followed by
    a blank.  Nothing is asked of TEXT values. *)
Definition line_fine {U : Unicode} (p : property) : Prop :=
  head_ok p /\ (~ is_text p -> ~ has_crlf (p_val p) /\ mark_free (p_val p)).
Inductive inner_fine {U : Unicode} : inner -> Prop :=
| Inner_fine : forall i,
    (forall k p, map_get k (i_props i) = Some p -> line_fine p) ->
    (forall k ps, map_get k (i_multi i) = Some ps -> Forall line_fine ps) ->
    Forall (fun o => name_ok (fst o) /\ inner_fine (snd o)) (i_comps i) ->
    inner_fine i.
Definition comp_fine {U : Unicode} (c : cal_component) : Prop :=
  name_ok (cc_kind c) /\ made (cc_inner c) /\ inner_fine (cc_inner c).
Definition cal_fine {U : Unicode} (c : calendar) : Prop :=
  Forall line_fine (c_props c) /\ Forall comp_fine (c_comps c).

(** [i] is what is read back from the text of the tree: all properties of a multi-valued name in order, the last one of
    any other name, the sub-components in order. *)
Inductive read_as {U : Unicode} : tree -> inner -> Prop :=
| Read_as : forall n ps cs i,
    (forall k, ~ multi_name k ->
       match map_get k (i_props i) with
       | Some q => exists p, last_of p_key k ps p /\ reread p q
       | None => Forall (fun p => p_key p <> k) ps
       end /\ map_get k (i_multi i) = None) ->
    (forall k, multi_name k ->
       match map_get k (i_multi i) with
       | Some l => exists qs, picked p_key k ps qs /\ qs <> [] /\ Forall2 reread qs l
       | None => Forall (fun p => p_key p <> k) ps
       end /\ map_get k (i_props i) = None) ->
    Forall2 (fun t o => fst o = t_name t /\ read_as t (snd o)) cs (i_comps i) ->
    read_as (Node n ps cs) i.
(** The component that is read under the name [k]: an event, todo or venue exactly if that is its name. *)
Definition typed (k : str) (c : cal_component) : Prop :=
  cc_kind c = k /\ forall o, c = COther o -> ~ In k [lit "VEVENT"; lit "VTODO"; lit "VVENUE"].
(** [d] is what is read back from the text of [c]. *)
Definition comp_reread {U : Unicode} (e : env) (c d : cal_component) : Prop :=
  typed (cc_kind c) d /\ exists t, arranged e (cc_kind c) (cc_inner c) t /\ read_as t (cc_inner d).

(** ** Documents that are kept *)

(** Every backslash starts one of the escapes of RFC 5545, and no escaped backslash stands before a character that
    would be an escape with it (see C08). *)
Definition plain_text (v : str) : Prop :=
  exists ps, v = wire ps /\ Forall rfc_piece ps
    /\ ~ exists a d b, ps = a ++ Escaped BSL :: Plain d :: b /\ In d [COMMA; SEMI; COLON; 78%N; 110%N].
(** Lines with different parameters, parameter values without line breaks before blanks, and values that are plain TEXT or
    without line breaks before blanks. *)
Definition wline_tame {U : Unicode} (l : wline) : Prop :=
  match l with
  | LValue k qs v => NoDup (map wp_key qs)
      /\ Forall (fun q => match wparam_value q with Some w => mark_free w | None => True end) qs
      /\ (determin_value_type k (map wparam_read qs) = Some Text -> plain_text v)
      /\ (determin_value_type k (map wparam_read qs) <> Some Text -> mark_free v)
  | LBare k => True
  end.
Inductive wtree_tame {U : Unicode} : wtree -> Prop :=
| W_tame : forall n its, Forall (either wline_tame wtree_tame) its -> wtree_tame (W n its).
