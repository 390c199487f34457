(** Exactly which calendars are read back from their own text: specification. *)
From Verif Require Import Str Spec ValueTypes Property Chrono DateTime Component Calendar Nom Parser
  SpecBuild SpecDate SpecTree SpecDoc SpecConv SpecRound.

(** Properties whose line stands for itself: the name is not END or BEGIN in any case; no parameter value starts with a double quote or has a
    line break before a blank; a value that is not TEXT has no CR LF and no line break before a blank.  Nothing is asked of the characters of
    names, of TEXT values, of the names of parameters, or of what double quotes, semicolons and colons their values have. *)
Definition line_tame {U : Unicode} (p : property) : Prop :=
  map lower_ascii (p_key p) <> lit "end" /\ map lower_ascii (p_key p) <> lit "begin"
  /\ Forall (fun q => ~ has_prefix [DQ] (snd q) /\ mark_free (snd q)) (p_params p)
  /\ (~ is_text p -> ~ has_crlf (p_val p) /\ mark_free (p_val p)).
(** A component that is read back, apart from its DTSTAMP and UID. *)
Definition comp_ok {U : Unicode} (x : cal_component) : Prop := kind_ok x /\ made (cc_inner x) /\ inner_ok (cc_inner x).
