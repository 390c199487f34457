(** C68: the language of the parser. *)
From Verif Require Import Str StrFacts Spec ValueTypes Property Component Calendar Nom Parser
  SpecDoc SpecItems SpecGrammar GrammarProofs ParserProofs ItemProofs Properties_Build.

(** C68. Every text is read as the specification says: as one component that takes all of it, as nothing, or as an error. *)
Theorem C68_components : forall {U : Unicode} i,
  (forall cs, read_components i = Ok cs <-> (exists c, cs = [c] /\ text_reads i c []) \/ cs = [] /\ text_other i)
  /\ ((exists e, read_components i = Err e) <-> text_fails i).
Proof. exact @read_components_exact. Qed.
Print Assumptions C68_components.
Theorem C68_simple : forall {U : Unicode} i,
  (forall cs, read_calendar_simple i = Ok cs <-> (exists c, cs = [c] /\ text_reads i c []) \/ cs = [] /\ text_other i)
  /\ ((exists e, read_calendar_simple i = Err e) <-> text_fails i).
Proof. exact @read_simple_exact. Qed.
Print Assumptions C68_simple.
(** A calendar: the inside of the component if its name is VCALENDAR, the component alone if it has another name. *)
Theorem C68_calendar : forall {U : Unicode} i,
  (forall k, read_calendar i = Ok k <->
     (exists ps cs, text_reads i (mk_pcomp (lit "VCALENDAR") ps cs) [] /\ k = mk_pcal ps cs)
     \/ (exists c, text_reads i c [] /\ pc_name c <> lit "VCALENDAR" /\ k = mk_pcal [] [c])
     \/ text_other i /\ k = mk_pcal [] [])
  /\ ((exists e, read_calendar i = Err e) <-> text_fails i).
Proof. exact @read_calendar_exact. Qed.
Print Assumptions C68_calendar.
(** A single component is read, whatever follows it. *)
Theorem C68_component : forall {U : Unicode} i,
  (forall c, read_component i = Ok c <-> exists r, text_reads i c r)
  /\ ((exists e, read_component i = Err e) <-> text_fails i \/ exists j, after_breaks i j /\ (~ begins j \/ comp_stuck j)).
Proof. intros U i. split; [intros c; apply read_component_exact|apply read_component_fails]. Qed.
Print Assumptions C68_component.
(** The specification is unambiguous, and leaves out no text. *)
Theorem C68_cases : forall {U : Unicode} i,
  (forall c c' r r', text_reads i c r -> text_reads i c' r' -> c = c' /\ r = r')
  /\ ((exists c, text_reads i c []) \/ text_other i \/ text_fails i)
  /\ ~ ((exists c, text_reads i c []) /\ text_other i) /\ ~ (text_fails i /\ (text_other i \/ exists c r, text_reads i c r)).
Proof. exact @text_one. Qed.
Print Assumptions C68_cases.

Section Examples.
Local Existing Instance some_unicode.
Example C68_example :
  (* a component, by the rules *)
  text_reads ([LF] ++ lit "begin:A" ++ [LF] ++ lit "X:1" ++ [LF] ++ lit "End:A") (mk_pcomp (lit "A") [mk_pprop (lit "X") (lit "1") []] []) []
  (* END with a longer name ends the component, and the rest of the name follows it *)
  /\ text_reads (lit "BEGIN:A" ++ [LF] ++ lit "END:AB") (mk_pcomp (lit "A") [] []) (lit "B")
  (* a component without END: the inside of B goes on to the end of the text, so BEGIN:B would be a property: an error ... *)
  /\ text_fails (lit "BEGIN:A" ++ [LF] ++ lit "BEGIN:B" ++ [LF] ++ lit "X:1" ++ [LF])
  (* ... but in lower case it is one, and then A has no END *)
  /\ text_other (lit "BEGIN:A" ++ [LF] ++ lit "begin:B" ++ [LF] ++ lit "X:1" ++ [LF])
  (* the wrong END *)
  /\ text_fails (lit "BEGIN:A" ++ [LF] ++ lit "END:B")
  /\ text_other (lit "X:1") /\ text_other [].
Proof.
  split.
  { exists (lit "begin:A" ++ [LF] ++ lit "X:1" ++ [LF] ++ lit "End:A"). split.
    { exists [LF]. split; [apply (bk_cons [LF] []); [now right|constructor]|]. split; [reflexivity|]. now apply no_break_spec. }
    apply (cr_comp (lit "begin:") (lit "A") ([LF] ++ lit "X:1" ++ [LF] ++ lit "End:A") (lit "X:1" ++ [LF] ++ lit "End:A"));
      [reflexivity|now apply name_ok_spec|now apply name_ends_stops| |].
    { exists [LF]. split; [apply (bk_cons [LF] []); [now right|constructor]|]. split; [reflexivity|]. now apply no_break_spec. }
    apply (br_prop _ _ _ (lit "End:A")).
    - now apply keyword_not.
    - now apply keyword_not.
    - exists (lit "End:A"). split; [|exists []; split; [constructor|split; [reflexivity|now apply no_break_spec]]].
      apply (prop_reads_iff (E := verror)). reflexivity.
    - discriminate.
    - apply (br_end (lit "A") (lit "End:") []); [reflexivity|]. exists []. split; [constructor|]. split; [reflexivity|now apply no_break_spec]. }
  split; [now apply (text_read (E := verror))|].
  split; [apply read_components_exact; vm_compute; eauto|].
  split; [apply read_nothing; vm_compute; reflexivity|].
  split; [apply read_components_exact; vm_compute; eauto|].
  split; apply read_nothing; vm_compute; reflexivity.
Qed.
End Examples.
