(** The round trip through text: specification. *)
From Verif Require Import Str Spec ValueTypes Property Chrono DateTime Component Calendar Nom Parser
  SpecBuild SpecDate SpecTree SpecDoc SpecConv.

(** ** Which properties, components and calendars *)

(** A TEXT value that is not read back: a backslash directly before [:], [N] or [n] (see C06). *)
Definition confused (v : str) : Prop := exists a d b, v = a ++ BSL :: d :: b /\ In d [COLON; 78%N; 110%N].
(** A parameter: a name the parser takes, a value without a line break followed by a blank, and without
    double quotes; or with double quotes, not in front, and without semicolons and colons. *)
Definition pvalue_ok (v : str) : Prop :=
  mark_free v /\ (~ In DQ v \/ ~ In SEMI v /\ ~ In COLON v /\ ~ has_prefix [DQ] v).
Definition param_ok {U : Unicode} (q : parameter) : Prop := name_ok (fst q) /\ pvalue_ok (snd q).
(** The value: TEXT that is not confused; or any other value without CR LF and without a line break followed by
    a blank. *)
Definition is_text {U : Unicode} (p : property) : Prop := prop_value_type p = Some Text.
Definition val_ok {U : Unicode} (p : property) : Prop :=
  (is_text p -> ~ confused (p_val p)) /\ (~ is_text p -> ~ has_crlf (p_val p) /\ mark_free (p_val p)).
(** Everything but the value. *)
Definition head_ok {U : Unicode} (p : property) : Prop :=
  prop_name_ok (p_key p) /\ Forall param_ok (p_params p) /\ NoDup (map fst (p_params p)).
Definition prop_ok {U : Unicode} (p : property) : Prop := head_ok p /\ val_ok p.

(** A component: as above, multi-valued properties under the names the parser knows as multi-valued and only
    there. *)
Inductive inner_ok {U : Unicode} : inner -> Prop :=
| Inner_ok : forall i,
    (forall k p, map_get k (i_props i) = Some p -> ~ multi_name k /\ prop_ok p) ->
    (forall k ps, map_get k (i_multi i) = Some ps -> multi_name k /\ Forall prop_ok ps) ->
    Forall (fun o => name_ok (fst o) /\ inner_ok (snd o)) (i_comps i) ->
    inner_ok i.
Definition kind_ok {U : Unicode} (c : cal_component) : Prop :=
  match c with
  | COther (k, _) => name_ok k /\ ~ In k [lit "VEVENT"; lit "VTODO"; lit "VVENUE"]
  | _ => True
  end.
Definition cal_ok {U : Unicode} (c : calendar) : Prop :=
  Forall prop_ok (c_props c)
  /\ Forall (fun x => kind_ok x /\ made (cc_inner x) /\ inner_ok (cc_inner x)) (c_comps c).

(** ASCII letters, digits and dashes. *)
Definition plain_name (k : str) : Prop :=
  Forall (fun c => 48 <= c <= 57 \/ 65 <= c <= 90 \/ 97 <= c <= 122 \/ c = 45)%N k.

(** ** What is read back *)

(** [j] is [i], with a DTSTAMP from the clock and a fresh UID if [i] has none, in [i] and in all its
    sub-components. *)
Inductive stamped (e : env) : inner -> inner -> Prop :=
| Stamped : forall i j,
    (forall k, k <> lit "DTSTAMP" -> k <> lit "UID" -> map_get k (i_props j) = map_get k (i_props i)) ->
    match map_get (lit "DTSTAMP") (i_props i) with
    | Some p => map_get (lit "DTSTAMP") (i_props j) = Some p
    | None => exists m, map_get (lit "DTSTAMP") (i_props j) = Some (utc_prop "DTSTAMP" (now_at e m))
    end ->
    match map_get (lit "UID") (i_props i) with
    | Some p => map_get (lit "UID") (i_props j) = Some p
    | None => exists m, map_get (lit "UID") (i_props j) = Some (text_prop "UID" (fmt_uuid (uuid_at e m)))
    end ->
    i_multi j = i_multi i ->
    Forall2 (fun o o' => fst o' = fst o /\ stamped e (snd o) (snd o')) (i_comps i) (i_comps j) ->
    stamped e i j.
Inductive cc_stamped (e : env) : cal_component -> cal_component -> Prop :=
| cs_event : forall i j, stamped e i j -> cc_stamped e (CEvent i) (CEvent j)
| cs_todo : forall i j, stamped e i j -> cc_stamped e (CTodo i) (CTodo j)
| cs_venue : forall i j, stamped e i j -> cc_stamped e (CVenue i) (CVenue j)
| cs_other : forall k i j, stamped e i j -> cc_stamped e (COther (k, i)) (COther (k, j)).
(** Every component has its DTSTAMP and UID. *)
Inductive has_stamps : inner -> Prop :=
| Has_stamps : forall i, map_get (lit "DTSTAMP") (i_props i) <> None -> map_get (lit "UID") (i_props i) <> None ->
    Forall (fun o => has_stamps (snd o)) (i_comps i) -> has_stamps i.

(** ** Line break styles *)

(** Every CR LF replaced by LF. *)
Inductive to_lf : str -> str -> Prop :=
| tl_nil : to_lf [] []
| tl_crlf : forall r t, to_lf r t -> to_lf (CR :: LF :: r) (LF :: t)
| tl_keep : forall c r t, ~ has_prefix [CR; LF] (c :: r) -> to_lf r t -> to_lf (c :: r) (c :: t).
(** A property without CR, and without LF except in a TEXT value. *)
Definition breakless {U : Unicode} (p : property) : Prop :=
  Forall (fun q => ~ In CR (snd q) /\ ~ In LF (snd q)) (p_params p)
  /\ ~ In CR (p_val p) /\ (~ is_text p -> ~ In LF (p_val p)).
(** All properties of a component and of its sub-components satisfy [Q]. *)
Inductive inner_all (Q : property -> Prop) : inner -> Prop :=
| Inner_all : forall i,
    (forall k p, map_get k (i_props i) = Some p -> Q p) ->
    (forall k ps, map_get k (i_multi i) = Some ps -> Forall Q ps) ->
    Forall (fun o => inner_all Q (snd o)) (i_comps i) ->
    inner_all Q i.
Definition cal_all (Q : property -> Prop) (c : calendar) : Prop :=
  Forall Q (c_props c) /\ Forall (fun x => inner_all Q (cc_inner x)) (c_comps c).

(** ** Zero-copy documents *)

(** Parsed properties that are printed as they were: TEXT values without a backslash before one of [\ , ; : N n];
    parameter values that need no quotes. *)
Definition escapes (v : str) : Prop := exists a d b, v = a ++ BSL :: d :: b /\ In d [BSL; COMMA; SEMI; COLON; 78%N; 110%N].
Definition pp_ok {U : Unicode} (q : pparam) : Prop :=
  name_ok (pp_key q)
  /\ match pp_val q with
     | None => True
     | Some v => v <> [] /\ mark_free v /\ ~ In SEMI v /\ ~ In COLON v /\ ~ has_prefix [DQ] v
     end.
Definition pr_ok {U : Unicode} (p : pprop) : Prop :=
  prop_name_ok (pr_name p) /\ Forall pp_ok (pr_params p)
  /\ mark_free (pr_val p) /\ ~ has_crlf (pr_val p)
  /\ (determin_value_type (pr_name p) (pr_params p) = Some Text -> ~ escapes (pr_val p)).
(** And components: not called CALENDAR in any case ([like_extra] adds lines to these). *)
Inductive pc_ok {U : Unicode} : pcomp -> Prop :=
| Pc_ok : forall n ps cs, name_ok n -> to_lowercase n <> lit "calendar" -> Forall pr_ok ps -> Forall pc_ok cs ->
    pc_ok (mk_pcomp n ps cs).
