(** C80: where a text is folded. *)
From Coq Require Import ZifyBool ZifyNat ZifyN.
From Verif Require Import Str StrFacts Spec Fold ValueTypes Property Chrono DateTime Component Calendar Nom Parser ErrorText
  SpecDoc SpecItems SpecRefold RefoldProofs ItemProofs Properties_Build Properties_Items.

(** C80. Two texts unfold to the same exactly if one is the other with folds put in and taken out ... *)
Theorem C80_unfold : forall s t, unfold s = unfold t <-> refolded s t.
Proof. intros. symmetry. apply refolded_unfold. Qed.
Print Assumptions C80_unfold.
(** ... where one more fold changes nothing exactly if it is not put inside of another one. *)
Theorem C80_insert : forall a m b, mark m -> ~ across a m -> (unfold (a ++ m ++ b) = unfold (a ++ b) <-> ~ across a b).
Proof. exact insert_exact. Qed.
Print Assumptions C80_insert.
(** Calendars and components of a calendar are read the same, and rejected with the same message, wherever their text is folded. *)
Theorem C80_from_str_partial : forall {U : Unicode} s t, refolded s t ->
  calendar_from_str s = calendar_from_str t /\ cc_from_str s = cc_from_str t
  /\ calendar_from_str_s s = calendar_from_str_s t /\ cc_from_str_s s = cc_from_str_s t.
Proof.
  intros U s t R. apply refolded_unfold in R. unfold calendar_from_str, cc_from_str, calendar_from_str_s, cc_from_str_s. now rewrite R.
Qed.
Print Assumptions C80_from_str_partial.
(** The functions that do not unfold read a folded text as a different one: of [Property] (which is the [FromStr] of a
    public type) and of calendars and components as parsed. *)
Theorem C80_refuted : exists s t, refolded s t /\ forall U : Unicode,
  property_from_str s <> property_from_str t /\ read_property s <> read_property t
  /\ read_calendar (lit "BEGIN:VCALENDAR" ++ crlf ++ s ++ crlf ++ lit "END:VCALENDAR" ++ crlf)
     <> read_calendar (lit "BEGIN:VCALENDAR" ++ crlf ++ t ++ crlf ++ lit "END:VCALENDAR" ++ crlf)
  /\ read_component (lit "BEGIN:VEVENT" ++ crlf ++ s ++ crlf ++ lit "END:VEVENT" ++ crlf)
     <> read_component (lit "BEGIN:VEVENT" ++ crlf ++ t ++ crlf ++ lit "END:VEVENT" ++ crlf).
Proof.
  exists (lit "SUMMARY:ab"), (lit "SUMMARY:a" ++ crlf ++ [SP] ++ lit "b"). split; [apply refolded_unfold; reflexivity|].
  intros U. repeat split; vm_compute; discriminate.
Qed.
Print Assumptions C80_refuted.
(** They read such a property up to its first fold: the rest of the value is lost. *)
Theorem C80_cut : forall {U : Unicode} k qs t v c r, name_ok k -> params_read qs t (COLON :: v ++ [CR; LF; c] ++ r) -> ~ has_crlf v ->
  let i := k ++ t ++ COLON :: v ++ [CR; LF; c] ++ r in
  ~ reserved i -> read_property i = Ok (mk_pprop k (decode_value k qs v) qs).
Proof.
  intros U k qs t v c r K P C i R. apply read_property_exact. split; [easy|]. left.
  exists [], k, qs, t, v, ([CR; LF; c] ++ r). repeat split; try easy; [now constructor|]. left. split; [|easy]. now exists (c :: r).
Qed.
Print Assumptions C80_cut.

Section Examples.
Local Existing Instance some_unicode.
(** A text folded three times, one of them inside of END, and the same text without folds. *)
Definition folded_text : str := lit "BEGIN:VCALENDAR" ++ crlf ++ lit "BEGIN:VEVENT" ++ crlf ++ lit "SUMM" ++ [LF; TAB] ++ lit "ARY:a"
  ++ [CR; LF; SP] ++ lit "b" ++ crlf ++ lit "END:VEVENT" ++ crlf ++ lit "EN" ++ [CR; LF; TAB] ++ lit "D:VCALENDAR" ++ crlf.
Definition flat_text : str := lit "BEGIN:VCALENDAR" ++ crlf ++ lit "BEGIN:VEVENT" ++ crlf ++ lit "SUMMARY:ab" ++ crlf
  ++ lit "END:VEVENT" ++ crlf ++ lit "END:VCALENDAR" ++ crlf.
Example C80_example :
  refolded flat_text folded_text
  /\ (exists c, calendar_from_str folded_text = Ok c /\ length (c_comps c) = 1)
  /\ (mark [LF; SP] /\ ~ across (lit "a") [LF; SP] /\ ~ across (lit "a") (lit "b"))
  /\ (mark [LF; SP] /\ ~ across [CR; LF] [LF; SP] /\ across [CR; LF] [SP])
  /\ read_property (lit "SUMMARY;X=1:a" ++ [CR; LF; SP] ++ lit "b") = Ok (mk_pprop (lit "SUMMARY") (lit "a") [mk_pparam (lit "X") (Some (lit "1"))]).
Proof.
  split; [apply refolded_unfold; vm_compute; reflexivity|].
  split; [eexists; split; vm_compute; reflexivity|].
  assert (M : mark [LF; SP]) by (exists SP; split; [now left|now right]).
  split; [|split].
  - split; [easy|]. split; intros (a & x & y & b & A & B & X & Y & Q); destruct (mark_parts _ _ Q X Y) as (c & _ & [(-> & _)|[(-> & _)|(-> & _)]]);
      destruct a as [|a1 [|a2 a]]; discriminate A.
  - split; [easy|]. split.
    + intros A. destruct (across_lf _ _ A) as (a & E). destruct a as [|a1 [|a2 a]]; try discriminate E. injection E as _ _ E. destruct a; discriminate E.
    + exists [], [CR; LF], [SP], []. repeat split; try easy. exists SP. split; [now left|now left].
  - vm_compute. reflexivity.
Qed.
End Examples.
