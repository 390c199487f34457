(** Exactly which parsed calendars come back when their own text is read. *)
From Verif Require Import Str Spec Text ValueTypes Property Chrono DateTime Component Calendar Nom Parser SpecDoc SpecRound SpecText SpecBack SpecFold.

(** What a parameter needs to come back. *)
Definition pp_back {U : Unicode} (q : pparam) : Prop :=
  name_ok (pp_key q)
  /\ match pp_val q with None => True | Some v => v <> [] /\ ~ In SEMI v /\ ~ In COLON v end.
(** What a property needs. *)
Definition pr_back {U : Unicode} (p : pprop) : Prop :=
  (name_ok (Parser.pr_name p) /\ ~ has_prefix (lit "END") (Parser.pr_name p) /\ ~ has_prefix (lit "BEGIN") (Parser.pr_name p))
  /\ Forall pp_back (pr_params p) /\ ~ has_crlf (pr_val p)
  /\ (determin_value_type (Parser.pr_name p) (pr_params p) = Some Text -> ~ escapes (pr_val p)).
(** A component with the name CALENDAR is given a DTSTAMP and a UID line if it has none. *)
Definition carries {U : Unicode} (n : str) (ps : list pprop) : Prop :=
  to_lowercase n = lit "calendar" ->
  In (lit "DTSTAMP") (map Parser.pr_name ps) /\ In (lit "UID") (map Parser.pr_name ps).
(** What a component needs; [pc_lines] leaves out the stamps. *)
Inductive pc_lines {U : Unicode} : pcomp -> Prop :=
| Pc_lines : forall n ps cs, name_ok n -> Forall pr_back ps -> Forall pc_lines cs -> pc_lines (mk_pcomp n ps cs).
Inductive pc_stamps {U : Unicode} : pcomp -> Prop :=
| Pc_stamps : forall n ps cs, carries n ps -> Forall pc_stamps cs -> pc_stamps (mk_pcomp n ps cs).
Definition pc_back {U : Unicode} (c : pcomp) : Prop := pc_lines c /\ pc_stamps c.

(** The parts of the syntax on which reading depends on what stands around a property: fold marks, quoted parameters, and
    END and BEGIN in small letters. *)
Definition pr_tame (p : pprop) : Prop :=
  map lower_ascii (Parser.pr_name p) <> lit "end" /\ map lower_ascii (Parser.pr_name p) <> lit "begin"
  /\ Forall (fun q => match pp_val q with None => True | Some v => mark_free v /\ ~ has_prefix [DQ] v end) (pr_params p)
  /\ mark_free (pr_val p).
Inductive pc_tame : pcomp -> Prop :=
| Pc_tame : forall n ps cs, Forall pr_tame ps -> Forall pc_tame cs -> pc_tame (mk_pcomp n ps cs).

(** The properties and components of a component, with the stamps it is given. *)
Definition stamp_line (e : env) (n : nat) : pprop := mk_pprop (lit "DTSTAMP") (format_utc_date_time (now_at e n)) [].
Definition uid_line (e : env) (n : nat) : pprop := mk_pprop (lit "UID") (fmt_uuid (uuid_at e n)) [].
(** [stamped e c d]: [d] is [c] with the stamps that its text has, each taken from the clock or the identifiers of [e]. *)
Inductive stamped {U : Unicode} (e : env) : pcomp -> pcomp -> Prop :=
| St_comp : forall n ps cs a b cs',
    (to_lowercase n = lit "calendar" /\ ~ In (lit "DTSTAMP") (map Parser.pr_name ps) -> exists m, a = [stamp_line e m]) ->
    (to_lowercase n <> lit "calendar" \/ In (lit "DTSTAMP") (map Parser.pr_name ps) -> a = []) ->
    (to_lowercase n = lit "calendar" /\ ~ In (lit "UID") (map Parser.pr_name ps) -> exists m, b = [uid_line e m]) ->
    (to_lowercase n <> lit "calendar" \/ In (lit "UID") (map Parser.pr_name ps) -> b = []) ->
    Forall2 (stamped e) cs cs' -> stamped e (mk_pcomp n ps cs) (mk_pcomp n (a ++ b ++ ps) cs').

(** Parameters on their line: [ts] are their texts, [r] follows them.  A value must not begin like a quoted string, be it by
    what comes after it. *)
Inductive params_open : list pparam -> list str -> str -> Prop :=
| po_nil : forall r, params_open [] [] r
| po_cons : forall q t qs ts r, pparam_written q t -> (forall v, pp_val q = Some v -> ~ looks_quoted (v ++ concat ts ++ r)) ->
    params_open qs ts r -> params_open (q :: qs) (t :: ts) r.
