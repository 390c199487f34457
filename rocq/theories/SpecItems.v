(** Single parameters and properties: what every text is read as. *)
From Verif Require Import Str Spec ValueTypes Property Component Calendar Nom Parser SpecDoc.

(** ** Parameters *)

(** The end of a parameter: the end of the text, or one of [;] and [:]. *)
Definition param_end (s : str) : Prop := s = [] \/ has_prefix [SEMI] s \/ has_prefix [COLON] s.
(** A quoted value, and perhaps more. *)
Definition quoted_start (s : str) : Prop := exists v r, v <> [] /\ ~ In DQ v /\ s = DQ :: v ++ DQ :: r.
(** [value_read o t rest]: of [t ++ rest], [t] is the text of the value [o]: a quoted value if there is one,
    or all up to the next [;] or [:], or the end. *)
Inductive value_read : option str -> str -> str -> Prop :=
| vr_quoted : forall v rest, v <> [] -> ~ In DQ v -> value_read (Some v) (DQ :: v ++ [DQ]) rest
| vr_plain : forall v rest, v <> [] -> ~ In SEMI v -> ~ In COLON v -> param_end rest -> ~ quoted_start (v ++ rest) ->
    value_read (Some v) v rest
| vr_none : forall rest, param_end rest -> value_read None [] rest.
(** The name is as long as possible. *)
Definition name_ends {U : Unicode} (s : str) : Prop := forall c r, s = c :: r -> ~ key_char c.
(** [param_read q s rest]: of [s ++ rest], [s] is the text of the parameter [q]. *)
Inductive param_read {U : Unicode} : pparam -> str -> str -> Prop :=
| pr_value : forall k o w t rest, blank w -> name_ok k -> value_read o t rest ->
    param_read (mk_pparam k o) (SEMI :: w ++ k ++ EQUALS :: t) rest
| pr_name : forall k w rest, blank w -> name_ok k -> name_ends rest -> ~ has_prefix [EQUALS] rest ->
    (k = [] -> ~ has_prefix [SP] rest /\ ~ has_prefix [TAB] rest) ->
    param_read (mk_pparam k None) (SEMI :: w ++ k) rest.
(** Parameters as long as there is a [;]. *)
Inductive params_read {U : Unicode} : list pparam -> str -> str -> Prop :=
| ps_nil : forall rest, ~ has_prefix [SEMI] rest -> params_read [] [] rest
| ps_cons : forall q qs s t rest, param_read q s (t ++ rest) -> params_read qs t rest ->
    params_read (q :: qs) (s ++ t) rest.

(** ** Properties *)

Definition white (w : str) : Prop := Forall (fun c => In c [SP; TAB; CR; LF]) w.
(** After any white space comes END or BEGIN. *)
Definition reserved (i : str) : Prop :=
  exists w r, white w /\ (i = w ++ lit "END" ++ r \/ i = w ++ lit "BEGIN" ++ r).
(** A property line: white space, a name, parameters, a colon, and the value up to the line break (see [value_cut]). *)
Definition line_read {U : Unicode} (i : str) (p : pprop) : Prop :=
  exists w k qs t v rest, i = w ++ k ++ t ++ COLON :: v ++ rest /\ white w /\ name_ok k
    /\ params_read qs t (COLON :: v ++ rest) /\ value_cut v rest
    /\ p = mk_pprop k (decode_value k qs v) qs.
(** The names at the start of a text; the longest is the one followed by no further name character. *)
Definition longest_name {U : Unicode} (i k : str) : Prop := exists r, i = k ++ r /\ name_ok k /\ name_ends r.
