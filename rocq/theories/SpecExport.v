(** Importing a calendar of the grammar of RFC 5545 ([SpecRfc]) and exporting it again: specification.  Nothing here is about
    the code: the document that goes in is compared with the document that comes out. *)
From Verif Require Import Str Spec SpecConv SpecRfc SpecImport.

(** ** What lines say *)

(** Several TEXT values in one property, separated by commas. *)
Inductive rfc_texts : list str -> str -> Prop :=
| rx_one : forall v w, rfc_text v w -> rfc_texts [v] w
| rx_more : forall v w vs ws, rfc_text v w -> rfc_texts vs ws -> rfc_texts (v :: vs) (w ++ COMMA :: ws).

(** The same characters and escapes, but for [\N] and [\n]. *)
Inductive same_piece : piece -> piece -> Prop :=
| sp_same : forall p, same_piece p p
| sp_break : forall c d, In c [78%N; 110%N] -> In d [78%N; 110%N] -> same_piece (Escaped c) (Escaped d).
Definition same_text (w w' : str) : Prop :=
  exists ps ps', Forall rfc_piece ps /\ Forall rfc_piece ps' /\ w = wire ps /\ w' = wire ps' /\ Forall2 same_piece ps ps'.
(** One text, which is everything the other decodes to. *)
Definition one_text (w w' : str) : Prop := forall ps, Forall rfc_piece ps -> w = wire ps -> rfc_text (decoded ps) w'.

(** A value with commas, but without colons and semicolons. *)
Definition merged (vs : list str) : Prop := exists v, vs = [v] /\ In COMMA v /\ ~ In COLON v /\ ~ In SEMI v.
(** The same values, but for a value with commas, which becomes several. *)
Definition regrouped (vs ws : list str) : Prop := joined ws = joined vs /\ (ws = vs <-> ~ merged vs).

(** The same parameters, in any order, as far as [pv] says. *)
Definition params_as (pv : list str -> list str -> Prop) (ps qs : list (str * list str)) : Prop :=
  length qs = length ps /\ NoDup (map fst qs) /\ forall k vs, In (k, vs) ps -> exists ws, In (k, ws) qs /\ pv vs ws.
(** The same line. *)
Definition line_same (r r' : rline) : Prop :=
  rl_name r' = rl_name r /\ params_as eq (rl_params r) (rl_params r') /\ (says_text r' <-> says_text r)
  /\ (says_text r -> same_text (rl_value r) (rl_value r')) /\ (~ says_text r -> rl_value r' = rl_value r).
(** What becomes of a line: values taken as TEXT are written as one text. *)
Definition line_close (r r' : rline) : Prop :=
  rl_name r' = rl_name r /\ params_as regrouped (rl_params r) (rl_params r') /\ (says_text r' <-> says_text r)
  /\ (taken_text r -> says_text r -> one_text (rl_value r) (rl_value r'))
  /\ (taken_text r -> ~ says_text r -> rfc_text (rl_value r) (rl_value r'))
  /\ (~ taken_text r -> rl_value r' = rl_value r).

(** ** Components and calendars *)

Definition named (n : str) (rs : list rline) : list rline := filter (fun r => str_eqb (rl_name r) n) rs.
(** In a component, the lines of each name are in order; a DTSTAMP and a UID may have been added. *)
Inductive tree_same : rtree -> rtree -> Prop :=
| Tree_same : forall k rs cs rs' cs',
    (forall n, Forall2 line_same (named n rs) (named n rs')
       \/ named n rs = [] /\ In n [lit "DTSTAMP"; lit "UID"] /\ length (named n rs') = 1) ->
    Forall2 tree_same cs cs' -> tree_same (RNode k rs cs) (RNode k rs' cs').
(** The lines of the calendar itself are all in order. *)
Inductive calendar_same : rtree -> rtree -> Prop :=
| Calendar_same : forall k rs cs rs' cs', Forall2 line_same rs rs' -> Forall2 tree_same cs cs' ->
    calendar_same (RNode k rs cs) (RNode k rs' cs').
(** What becomes of a component: of lines with a name that is not treated as multi-valued, only the last is there. *)
Inductive left_lines (n : str) (rs : list rline) : list rline -> Prop :=
| ll_all : multi_name n \/ named n rs = [] -> left_lines n rs (named n rs)
| ll_last : forall a r, ~ multi_name n -> named n rs = a ++ [r] -> left_lines n rs [r].
Inductive tree_close : rtree -> rtree -> Prop :=
| Tree_close : forall k rs cs rs' cs',
    (forall n, exists ls, left_lines n rs ls
       /\ (Forall2 line_close ls (named n rs') \/ ls = [] /\ In n [lit "DTSTAMP"; lit "UID"] /\ length (named n rs') = 1)) ->
    Forall2 tree_close cs cs' -> tree_close (RNode k rs cs) (RNode k rs' cs').
Inductive calendar_close : rtree -> rtree -> Prop :=
| Calendar_close : forall k rs cs rs' cs', Forall2 line_close rs rs' -> Forall2 tree_close cs cs' ->
    calendar_close (RNode k rs cs) (RNode k rs' cs').

(** ** Which documents *)

(** RFC 5545: no parameter twice in a property; a backslash in a TEXT value is an escape. *)
Definition line_valid (r : rline) : Prop :=
  NoDup (map (fun q => map ascii_upper (fst q)) (rl_params r))
  /\ (says_text r -> exists ps, Forall rfc_piece ps /\ rl_value r = wire ps).
Inductive tree_valid : rtree -> Prop :=
| Tree_valid : forall k rs cs, Forall line_valid rs -> Forall tree_valid cs -> tree_valid (RNode k rs cs).

(** No parameter value with commas that would become several; values taken as TEXT are one text, or have nothing to escape. *)
Definition line_single (r : rline) : Prop :=
  Forall (fun q => ~ merged (snd q)) (rl_params r)
  /\ (taken_text r -> says_text r -> exists v, rfc_text v (rl_value r))
  /\ (taken_text r -> ~ says_text r -> Forall (fun c => ~ In c [BSL; SEMI; COMMA]) (rl_value r)).
(** In a component, only properties that are treated as multi-valued occur more than once. *)
Inductive tree_single : rtree -> Prop :=
| Tree_single : forall k rs cs, Forall line_single rs -> (forall n, 2 <= length (named n rs) -> multi_name n) ->
    Forall tree_single cs -> tree_single (RNode k rs cs).
Inductive calendar_single : rtree -> Prop :=
| Calendar_single : forall k rs cs, Forall line_single rs -> Forall tree_single cs -> calendar_single (RNode k rs cs).
