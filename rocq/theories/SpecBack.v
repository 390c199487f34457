(** Exactly which properties are read back from their own text. *)
From Verif Require Import Str Spec ValueTypes Property Chrono DateTime Component Calendar Nom Parser
  SpecBuild SpecDate SpecTree SpecDoc SpecRound SpecText.

(** The same property: parameters are a map. *)
Definition same_property (q p : property) : Prop :=
  p_key q = p_key p /\ p_val q = p_val p /\ forall k, map_get k (p_params q) = map_get k (p_params p).

(** The parts of the content line of a property: the texts of its parameters and of its value. *)
Definition line_parts {U : Unicode} (p : property) (ts : list str) (w : str) : Prop :=
  Forall2 param_written (p_params p) ts /\ (is_text p -> text_written (p_val p) w) /\ (~ is_text p -> w = p_val p).

(** A text that looks like a quoted string: a double quote in front, something, and another double quote. *)
Definition looks_quoted (s : str) : Prop := exists w, s = DQ :: w /\ In DQ w /\ ~ has_prefix [DQ] w.
(** A parameter value that is read back with [rest] after it: without double quotes; or without semicolons and colons,
    and then the line from here on must not look quoted. *)
Definition protected (v rest : str) : Prop :=
  ~ In DQ v \/ ~ In SEMI v /\ ~ In COLON v /\ ~ looks_quoted (v ++ rest).
Inductive params_back {U : Unicode} : list parameter -> list str -> str -> Prop :=
| pb_nil : forall r, params_back [] [] r
| pb_cons : forall k v ps t ts r, name_ok k -> protected v (concat ts ++ r) -> params_back ps ts r ->
    params_back ((k, v) :: ps) (t :: ts) r.

(** A property that is read back, where [ts] and [w] are the parts of its line: a name that the parser takes and that does not
    start with END or BEGIN; parameters as above; TEXT without a backslash directly before [:], [N] or [n], any other value
    without CR LF. *)
Definition comes_back {U : Unicode} (p : property) (ts : list str) (w : str) : Prop :=
  name_ok (p_key p) /\ ~ has_prefix (lit "END") (p_key p) /\ ~ has_prefix (lit "BEGIN") (p_key p)
  /\ params_back (p_params p) ts (COLON :: w)
  /\ (is_text p -> ~ confused (p_val p)) /\ (~ is_text p -> ~ has_crlf (p_val p)).
