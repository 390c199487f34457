(** C97: the JSON texts of parsed calendars. *)
From Coq Require Import ZifyBool ZifyNat ZifyN.
From Verif Require Import Str ValueTypes Property Component Calendar Nom Parser Fold ErrorText Serde JsonText SpecSerde SpecJson SerdeProofs JsonProofs
  Properties_Build Properties_Serde.

(** What is read is exactly the JSON of RFC 8259, and each text has one value. *)
Theorem C97_json : forall s v, json_read s = Some v <-> json_document v s.
Proof. exact json_read_spec. Qed.
Print Assumptions C97_json.
Theorem C97_one : forall s v w, json_document v s -> json_document w s -> v = w.
Proof. intros s v w. apply json_one. Qed.
Print Assumptions C97_one.
(** What is written, in one line or indented, is the JSON of the calendar; strings have no control characters, so that the
    first has one line and the second no other control characters than its line feeds. *)
Theorem C97_written : forall c, json_document (ser_cal c) (cal_to_text c) /\ json_document (ser_cal c) (cal_to_pretty c)
  /\ Forall (fun x => (32 <= x)%N) (cal_to_text c) /\ Forall (fun x => (x = 10 \/ 32 <= x)%N) (cal_to_pretty c).
Proof.
  intros c. pose proof (ser_numbers c) as N. split; [now apply json_text_document, compact_text|]. split; [now apply json_text_document, pretty_text|].
  split; [now apply compact_visible|now apply pretty_visible].
Qed.
Print Assumptions C97_written.
(** The first form has no white space outside of strings; the second is the first with one value or bracket a line, each
    indented by two spaces a level, and a space after each key's colon. *)
Theorem C97_layout : forall c, squeeze Outside (cal_to_text c) = cal_to_text c /\ squeeze Outside (cal_to_pretty c) = cal_to_text c
  /\ indented (cal_to_pretty c).
Proof.
  intros c. pose proof (ser_numbers c) as N. unfold cal_to_text, cal_to_pretty. split; [|split; [|now apply pretty_indented]].
  - pose proof (squeezes_compact _ N []) as H. now rewrite !app_nil_r in H.
  - pose proof (squeezes_pretty _ 0 N []) as H. now rewrite !app_nil_r in H.
Qed.
Print Assumptions C97_layout.
(** The calendars that a text is read as. *)
Theorem C97_read : forall s c, cal_from_text s = Some c <-> exists v, json_document v s /\ cal_json 127 v c.
Proof.
  intros s c. unfold cal_from_text. split.
  - destruct (json_read s) as [v|] eqn:R; [|easy]. intros H. exists v. split; [now apply json_read_spec|now apply cal_spec].
  - intros (v & D & J). apply json_read_spec in D. rewrite D. now apply cal_spec.
Qed.
Print Assumptions C97_read.
(** A calendar written and read is the same exactly if it has no more than 127 levels; otherwise it is refused, never changed. *)
Theorem C97_round : forall c, let ok := json_depth (ser_cal c) <= 127 in
  (cal_from_text (cal_to_text c) = Some c <-> ok) /\ (cal_from_text (cal_to_pretty c) = Some c <-> ok)
  /\ (~ ok -> cal_from_text (cal_to_text c) = None /\ cal_from_text (cal_to_pretty c) = None).
Proof.
  intros c ok. destruct (C97_written c) as (A & B & _). apply json_read_spec in A, B. unfold cal_from_text. rewrite A, B.
  destruct (C73_kept_partial c) as (_ & R & O). split; [exact R|]. split; [exact R|]. intros N.
  destruct (cal_from_json (ser_cal c)) as [d|] eqn:E; [|easy]. exfalso. apply N, R. f_equal. now apply O.
Qed.
Print Assumptions C97_round.
Theorem C97_different : forall c d, cal_to_text c = cal_to_text d \/ cal_to_pretty c = cal_to_pretty d -> c = d.
Proof.
  intros c d H. destruct (C97_written c) as (A & B & _). destruct (C97_written d) as (A' & B' & _).
  assert (E : ser_cal c = ser_cal d) by (destruct H as [H|H]; [rewrite H in A; now apply (json_one _ _ _ A A')|rewrite H in B; now apply (json_one _ _ _ B B')]).
  pose proof (proj2 (cal_round (json_depth (ser_cal c)) c) (le_n _)) as Q. rewrite E in Q. now apply ser_one in Q.
Qed.
Print Assumptions C97_different.
(** What the first example prints: the indented JSON of the calendar, or the message of the parser. *)
Theorem C97_printed : forall {U : Unicode} s,
  (forall c, read_calendar (unfold s) = Ok c -> exists t, ical_to_json s = Ok t /\ json_document (ser_cal c) t /\ indented t)
  /\ (forall m, ical_to_json s = Err m <-> read_calendar_s (unfold s) = Err m).
Proof.
  intros U s. unfold ical_to_json, read_calendar_s. split.
  - intros c R. rewrite R. exists (cal_to_pretty c). split; [easy|]. split; [apply C97_written|apply C97_layout].
  - intros m. destruct (read_calendar (unfold s)) as [c|e|]; cbn [rmap rmap_err]; split; intros H; try discriminate H; injection H as <-; reflexivity.
Qed.
Print Assumptions C97_printed.
(** The examples one after the other print the calendar that was read. *)
Theorem C97_examples : forall {U : Unicode} s t, ical_to_json s = Ok t -> exists c, read_calendar (unfold s) = Ok c
  /\ (json_depth (ser_cal c) <= 127 -> forall e, json_to_ical e t = Some (pcal_write e c))
  /\ (127 < json_depth (ser_cal c) -> forall e, json_to_ical e t = None).
Proof.
  intros U s t H. unfold ical_to_json, read_calendar_s in H. destruct (read_calendar (unfold s)) as [c|m|] eqn:R; try easy.
  cbn [rmap_err rmap] in H. injection H as <-. exists c. split; [easy|]. destruct (C97_round c) as (_ & P & N). unfold json_to_ical. split.
  - intros L e. apply P in L. now rewrite L.
  - intros L e. destruct N as [_ N]; [lia|]. now rewrite N.
Qed.
Print Assumptions C97_examples.

Section Example.
  Local Existing Instance some_unicode.
  Definition json_ics : str := lit "BEGIN:VCALENDAR" ++ [LF] ++ lit "NAME;X=" ++ [DQ; 92%N; DQ] ++ lit ":a" ++ [TAB; 233%N; 1%N] ++ [LF] ++ lit "BEGIN:VEVENT" ++ [LF]
    ++ lit "UID:u" ++ [LF] ++ lit "DTSTAMP:d" ++ [LF] ++ lit "END:VEVENT" ++ [LF] ++ lit "END:VCALENDAR" ++ [LF].
  Definition json_txt : str := [123%N; LF] ++ lit "  " ++ [DQ] ++ lit "properties" ++ [DQ] ++ lit ": [" ++ [LF] ++ lit "    {" ++ [LF]
    ++ lit "      " ++ [DQ] ++ lit "name" ++ [DQ] ++ lit ": " ++ [DQ] ++ lit "NAME" ++ [DQ] ++ lit "," ++ [LF]
    ++ lit "      " ++ [DQ] ++ lit "val" ++ [DQ] ++ lit ": " ++ [DQ] ++ lit "a\t" ++ [233%N] ++ lit "\u0001" ++ [DQ] ++ lit "," ++ [LF].
  Example C97_example : exists t c, ical_to_json json_ics = Ok t /\ (exists r, t = json_txt ++ r) /\ read_calendar (unfold json_ics) = Ok c
    /\ json_depth (ser_cal c) <= 127 /\ json_to_ical some_env t = Some (pcal_write some_env c)
    /\ cal_from_text (lit "{}") = None
    /\ cal_from_text (lit " [ [ ] , [ [" ++ [DQ] ++ lit "X\ud83d\uDE00\/" ++ [DQ] ++ lit ",[],[]]]]" ++ [LF]) = Some (mk_pcal [] [mk_pcomp [88; 128512; 47]%N [] []]).
  Proof.
    eexists _, _. split; [vm_compute; reflexivity|]. split; [eexists; vm_compute; reflexivity|]. split; [vm_compute; reflexivity|].
    split; [apply Nat.leb_le; reflexivity|]. split; [vm_compute; reflexivity|]. split; vm_compute; reflexivity.
  Qed.
End Example.
Example C97_layout_example :
  let c := mk_pcal [] [mk_pcomp (lit "a b") [] []] in
  cal_to_text c = lit "{" ++ quoted (lit "properties") ++ lit ":[]," ++ quoted (lit "components") ++ lit ":[{" ++ quoted (lit "name") ++ lit ":" ++ quoted (lit "a b")
    ++ lit "," ++ quoted (lit "properties") ++ lit ":[]," ++ quoted (lit "components") ++ lit ":[]}]}"
  /\ indented (lit "[" ++ [LF] ++ lit "  1," ++ [LF] ++ lit "  2" ++ [LF] ++ lit "]") /\ squeeze Outside (lit "[1, 2]") = lit "[1,2]".
Proof.
  intros c. split; [reflexivity|]. split; [|reflexivity]. exists (lit "["), [lit "  1,"; lit "  2"; lit "]"]. split; [|reflexivity].
  assert (N : forall d, (49 <= d < 58)%N -> one_value [d]).
  { intros d D. right. left. apply (nt [] [d] [] []); [now left| |now left|now left]. right. split; [split; [easy|constructor; [lia|constructor]]|].
    intros r E. injection E as ->. lia. }
  apply (ls_more _ _ _ 1); [apply (la_open 0 [] (lit "[")); [now left|now left]|discriminate|].
  apply (ls_more _ _ _ 1); [apply (la_value 1 [] [49%N] [44%N]); [now left|apply N; lia|now right]|easy|].
  apply (ls_more _ _ _ 1); [apply (la_value 1 [] [50%N] []); [now left|apply N; lia|now left]|easy|].
  apply (ls_more _ _ _ 0); [apply (la_close 0 (lit "]") []); [now left|now left]|discriminate|constructor].
Qed.
