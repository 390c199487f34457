(** What is read from any text at all (C87), and the round trip of any document (C65). *)
From Verif Require Import Str StrFacts Spec Fold Text TextProofs ValueTypes Property Chrono DateTime
  Component Alarm Calendar Nom Parser SpecBuild SpecDate SpecTree SpecDoc SpecConv SpecRound SpecItems SpecGrammar SpecShape BuildProofs DateProofs ValueProofs
  TreeProofs ParserProofs DocProofs ConvProofs RoundProofs LfProofs RoundChecks ItemProofs GrammarProofs FoldProofs UnfoldProofs ShapeProofs
  Properties_Build Properties_Round.
From Coq Require Import ZifyBool ZifyNat ZifyN.

(** ** C87 *)
(** Whatever the text, what is read of it has names, parameters and kinds that can be written. *)
Theorem C87_calendar : forall {U : Unicode} s c, calendar_from_str s = Ok c -> cal_shape c.
Proof. exact @calendar_shape. Qed.
Print Assumptions C87_calendar.
Theorem C87_component : forall {U : Unicode} s c, cc_from_str s = Ok c -> comp_shape c.
Proof. exact @component_shape. Qed.
Print Assumptions C87_component.
Theorem C87_property : forall {U : Unicode} s p, property_from_str s = Ok p -> prop_shape p.
Proof. exact @property_shape. Qed.
Print Assumptions C87_property.
(** Nothing is made up: names, parameters and values stand in the unfolded text, values perhaps with their escapes undone. A value never
    runs across a CR LF. *)
Theorem C87_parts : forall {U : Unicode} s c u, calendar_from_str s = Ok c -> unfolds s u ->
  cal_all (fun p => part_of (p_key p) u
    /\ (exists v, part_of v u /\ ~ has_crlf v /\ (p_val p = v \/ p_val p = unescape_text v))
    /\ Forall (fun q => part_of (fst q) u /\ part_of (snd q) u) (p_params p)) c.
Proof.
  intros U s c u H F. assert (Qp : forall a b d, part_of (a ++ b ++ d) u -> part_of b u).
  { intros a b d (x & y & ->). exists (x ++ a), (d ++ y). now rewrite <- !app_assoc. }
  assert (Qu : part_of (unfold s) u).
  { rewrite (unfold_eq _ _ F). exists [], []. now rewrite app_nil_r. }
  pose proof (calendar_parts (fun v => part_of v u) Qp s c H Qu) as G. eapply cal_all_and; [|exact G|exact G].
  cbv beta. intros p (N & (ps & v & A & B & E) & P) _. split; [easy|]. split.
  - exists v. split; [easy|]. split; [easy|]. rewrite E. unfold decode_value. destruct determin_value_type as [[]|]; try (now left). now right.
  - eapply Forall_impl; [|exact P]. intros [k w]; cbn [fst snd]. intros [X Y]. split; [easy|]. destruct Y as [->|Y]; [|easy]. now exists [], u.
Qed.
Print Assumptions C87_parts.

(** Of a parameter given twice the last is kept, an open quote gives a value with a double quote, and [end] without a colon is a name. *)
Definition odd_text : str := lit "BEGIN:VCALENDAR" ++ [LF] ++ lit "X;A=1;A=2;B=""c:d" ++ [LF] ++ lit "end" ++ [LF] ++ lit "END:VCALENDAR".
Section Odd.
  Local Existing Instance some_unicode.
  Example C87_example : exists c p q, calendar_from_str odd_text = Ok c /\ cal_shape c /\ c_props c = [p; q]
    /\ p_key p = lit "X" /\ p_params p = [(lit "A", lit "2"); (lit "B", lit """c")] /\ p_val p = lit "d" /\ p_key q = lit "end" /\ p_val q = [].
  Proof.
    do 3 eexists. split; [vm_compute; reflexivity|]. split; [|now vm_compute].
    apply (calendar_shape odd_text). now vm_compute.
  Qed.
End Odd.

(** ** C65 *)
(** Any document: if the properties of the calendar read from it are quiet, then writing and reading keep it. *)
Theorem C65_any_partial : forall {U : Unicode} s d e s', calendar_from_str s = Ok d -> cal_all prop_quiet d -> clock_ok e -> cal_write e d = Ret s' ->
  exists d', calendar_from_str s' = Ok d' /\ c_props d' = c_props d /\ Forall2 (cc_stamped e) (c_comps d) (c_comps d')
    /\ (Forall (fun x => has_stamps (cc_inner x)) (c_comps d) -> d' = d)
    /\ forall e' s'', clock_ok e' -> cal_write e' d' = Ret s'' -> calendar_from_str s'' = Ok d'.
Proof.
  intros U s d e s' H Q Ce W. pose proof (calendar_quiet_ok s d H Q) as K.
  destruct (cal_back_ok e d s' Ce K W) as (d' & E' & K' & H' & P & S). exists d'. repeat (split; [easy|]).
  split.
  - intros H2. pose proof (cal_fixed e d s' Ce K H2 W) as X. congruence.
  - intros e' s'' Ce' W'. now apply (cal_fixed e').
Qed.
Print Assumptions C65_any_partial.
(** In particular any document without backslashes and double quotes, in which unfolding leaves no line break before a blank, and without
    properties called END or BEGIN in any case. *)
Theorem C65_plain_partial : forall {U : Unicode} s u d e s', unfolds s u -> ~ In BSL s -> ~ In DQ s -> mark_free u -> calendar_from_str s = Ok d ->
  cal_all (fun p => map lower_ascii (p_key p) <> lit "end" /\ map lower_ascii (p_key p) <> lit "begin") d -> clock_ok e -> cal_write e d = Ret s' ->
  exists d', calendar_from_str s' = Ok d' /\ c_props d' = c_props d /\ Forall2 (cc_stamped e) (c_comps d) (c_comps d')
    /\ (Forall (fun x => has_stamps (cc_inner x)) (c_comps d) -> d' = d)
    /\ forall e' s'', clock_ok e' -> cal_write e' d' = Ret s'' -> calendar_from_str s'' = Ok d'.
Proof. intros U s u d e s' F B D M H N. apply (C65_any_partial s); [easy|]. now apply (calendar_plain_quiet s u). Qed.
Print Assumptions C65_plain_partial.

(** Each condition is needed. A line [end] is read as a property, written as [end:], and then ends the calendar under the wrong name. *)
Theorem C65_end_refuted : forall {U : Unicode}, exists s d s' x, calendar_from_str s = Ok d /\ cal_write some_env d = Ret s'
  /\ calendar_from_str s' = Err x.
Proof.
  intros U. exists (lit "BEGIN:VCALENDAR" ++ [LF] ++ lit "end" ++ [LF] ++ lit "END:VCALENDAR" ++ [LF]).
  do 3 eexists. split; [vm_compute; reflexivity|]. split; vm_compute; reflexivity.
Qed.
Print Assumptions C65_end_refuted.
(** A line [begin] is written as [begin:], and then begins a component without a name that any end closes. The calendar itself is never
    closed, and an empty one is read. *)
Theorem C65_begin_refuted : forall {U : Unicode}, exists s d s', calendar_from_str s = Ok d /\ cal_write some_env d = Ret s'
  /\ length (c_props d) = 2%nat /\ calendar_from_str s' = Ok (mk_calendar [] []).
Proof.
  intros U. exists (lit "BEGIN:VCALENDAR" ++ [LF] ++ lit "VERSION:2.0" ++ [LF] ++ lit "begin" ++ [LF] ++ lit "END:VCALENDAR" ++ [LF]).
  do 2 eexists. split; [vm_compute; reflexivity|]. split; [vm_compute; reflexivity|]. split; vm_compute; reflexivity.
Qed.
Print Assumptions C65_begin_refuted.
(** A parameter value that starts with a double quote, closed by nothing; written, a double quote of another property comes after it and
    closes it. *)
Theorem C65_quote_refuted : forall {U : Unicode}, exists s d s' x, calendar_from_str s = Ok d /\ cal_write some_env d = Ret s'
  /\ length (c_comps d) = 1%nat /\ calendar_from_str s' = Err x.
Proof.
  intros U. exists (lit "BEGIN:VCALENDAR" ++ [LF] ++ lit "BEGIN:VEVENT" ++ [LF] ++ lit "Y:say ""hi""" ++ [LF] ++ lit "X;A=""b:v" ++ [LF]
    ++ lit "END:VEVENT" ++ [LF] ++ lit "END:VCALENDAR" ++ [LF]).
  do 3 eexists. split; [vm_compute; reflexivity|]. split; [vm_compute; reflexivity|]. split; vm_compute; reflexivity.
Qed.
Print Assumptions C65_quote_refuted.
(** A value that is not TEXT and in which unfolding leaves a line break and a blank: written, they are taken for a fold. *)
Theorem C65_mark_refuted : forall {U : Unicode}, exists s d s' d' p q, calendar_from_str s = Ok d /\ cal_write some_env d = Ret s'
  /\ calendar_from_str s' = Ok d' /\ c_props d = [p] /\ p_val p = lit "a" ++ [LF; SP] ++ lit "b" /\ c_props d' = [q] /\ p_val q = lit "ab".
Proof.
  intros U. exists (lit "BEGIN:VCALENDAR" ++ [CR; LF] ++ lit "URL:a" ++ [LF; LF; SP; SP] ++ lit "b" ++ [CR; LF] ++ lit "END:VCALENDAR" ++ [CR; LF]).
  do 5 eexists. split; [vm_compute; reflexivity|]. split; [vm_compute; reflexivity|]. split; [vm_compute; reflexivity|]. now vm_compute.
Qed.
Print Assumptions C65_mark_refuted.
(** Two VALUE parameters: the first says that the escapes are undone, the last is kept; a carriage return before [\n] then becomes a line
    break. *)
Theorem C65_value_refuted : forall {U : Unicode}, exists s d s' d' p, calendar_from_str s = Ok d /\ cal_write some_env d = Ret s'
  /\ calendar_from_str s' = Ok d' /\ c_props d = [p] /\ p_val p = lit "a" ++ [CR; LF] ++ lit "b" /\ length (c_props d') = 2%nat.
Proof.
  intros U. exists (lit "BEGIN:VCALENDAR" ++ [CR; LF] ++ lit "X;VALUE=TEXT;VALUE=URI:a" ++ [CR] ++ lit "\nb" ++ [CR; LF] ++ lit "END:VCALENDAR" ++ [CR; LF]).
  do 4 eexists. split; [vm_compute; reflexivity|]. split; [vm_compute; reflexivity|]. split; [vm_compute; reflexivity|]. now vm_compute.
Qed.
Print Assumptions C65_value_refuted.

(** A document outside the grammar of C65_kept_partial: no VCALENDAR around it, a repeated parameter, and a double quote inside a parameter value. *)
Section Any.
  Local Existing Instance some_unicode.
  Definition any_text : str := lit "BEGIN:VEVENT" ++ [LF] ++ lit "X;A=1;A=2;B=c""d:e" ++ [LF] ++ lit "SUMMARY:a\, b" ++ [LF] ++ lit "END:VEVENT".
  Definition any_read : calendar := match calendar_from_str any_text with Ok d => d | _ => cal_empty end.
  Example C65_any_example : calendar_from_str any_text = Ok any_read /\ cal_all prop_quiet any_read /\ clock_ok some_env
    /\ (exists s', cal_write some_env any_read = Ret s') /\ length (c_comps any_read) = 1%nat.
  Proof.
    split; [now vm_compute|]. split; [apply (cal_all_check prop_quietb); [apply prop_quietb_spec|now vm_compute|now vm_compute]|].
    split; [apply some_env_ok|]. split; [eexists; vm_compute; reflexivity|reflexivity].
  Qed.
  Definition plain_text : str := [LF; LF] ++ lit "begin:VCALENDAR" ++ [LF] ++ lit "VERSION" ++ [LF] ++ lit ":2.0" ++ [LF] ++ lit "X:a" ++ [LF; SP] ++ lit "b" ++ [LF] ++ lit "End:VCALENDAR".
  Definition plain_read : calendar := match calendar_from_str plain_text with Ok d => d | _ => cal_empty end.
  Example C65_plain_example : exists u, unfolds plain_text u /\ ~ In BSL plain_text /\ ~ In DQ plain_text /\ mark_free u
    /\ calendar_from_str plain_text = Ok plain_read /\ length (c_props plain_read) = 3%nat
    /\ cal_all (fun p => map lower_ascii (p_key p) <> lit "end" /\ map lower_ascii (p_key p) <> lit "begin") plain_read
    /\ exists s', cal_write some_env plain_read = Ret s'.
  Proof.
    exists (unfold plain_text). split; [apply unfold_unfolds|]. split; [intros I; vm_compute in I; intuition discriminate|].
    split; [intros I; vm_compute in I; intuition discriminate|].
    split; [apply unmarkedb_spec; now vm_compute|].
    split; [now vm_compute|]. split; [now vm_compute|].
    split; [|eexists; vm_compute; reflexivity].
    split; [vm_compute; repeat constructor; intros E; discriminate E|constructor].
  Qed.
End Any.
