(** C79: the errors of the parser. *)
From Verif Require Import Str StrFacts Spec Fold ValueTypes Property Chrono DateTime Component Calendar Nom Parser ErrorText
  SpecDoc SpecItems SpecGrammar SpecError SpecStack StackProofs Properties_Build.

(** C79. Exactly the texts of the specification are rejected, with exactly the entries of the specification. *)
Theorem C79_entries : forall {U : Unicode} i e,
  (read_calendar i = Err e <-> text_fails_with i e)
  /\ (read_components i = Err e <-> text_fails_with i e)
  /\ (read_component i = Err e <-> text_fails_with i e \/ text_none_with i e)
  /\ (read_property i = Err e <-> exists r, reserved_at i r /\ e = property_stack i r)
  /\ (read_parameter i = Err e <-> ~ has_prefix [SEMI] i /\ e = [(i, VNom KTag); (i, VNom KAlt)])
  /\ (calendar_from_str i = Err e <-> text_fails_with (unfold i) e)
  /\ (cc_from_str i = Err e <-> text_fails_with (unfold i) e \/ text_none_with (unfold i) e)
  /\ (property_from_str i = Err e <-> exists r, reserved_at i r /\ e = property_stack i r).
Proof. exact @stacks. Qed.
Print Assumptions C79_entries.
(** The simple reader reports the innermost entry. *)
Theorem C79_simple : forall {U : Unicode} i x k, read_calendar_simple i = Err (x, k) <-> exists t, text_fails_with i ((x, VNom k) :: t).
Proof. exact @simple_fail. Qed.
Print Assumptions C79_simple.
(** The texts of the errors: one message for each rejected text (cf. C53). *)
Theorem C79_messages : forall {U : Unicode} i m,
  (read_calendar_s i = Err m <-> exists e, text_fails_with i e /\ message_for octets i e m)
  /\ (read_components_s i = Err m <-> exists e, text_fails_with i e /\ message_for octets i e m)
  /\ (read_component_s i = Err m <-> exists e, (text_fails_with i e \/ text_none_with i e) /\ message_for octets i e m)
  /\ (read_property_s i = Err m <-> exists e, (exists r, reserved_at i r /\ e = property_stack i r) /\ message_for octets i e m)
  /\ (read_parameter_s i = Err m <-> exists e, (~ has_prefix [SEMI] i /\ e = [(i, VNom KTag); (i, VNom KAlt)]) /\ message_for octets i e m)
  /\ (calendar_from_str_s i = Err m <-> exists e, text_fails_with (unfold i) e /\ message_for octets (unfold i) e m)
  /\ (cc_from_str_s i = Err m <-> exists e, (text_fails_with (unfold i) e \/ text_none_with (unfold i) e) /\ message_for octets (unfold i) e m)
  /\ (property_from_str_s i = Err m <-> exists e, (exists r, reserved_at i r /\ e = property_stack i r) /\ message_for octets i e m).
Proof. exact @stack_messages. Qed.
Print Assumptions C79_messages.
Theorem C79_one_message : forall width i e m m', message_for width i e m -> message_for width i e m' -> m = m'.
Proof. exact message_one. Qed.
Print Assumptions C79_one_message.

Section Example.
  Local Existing Instance some_unicode.
  Definition mis : str := lit "BEGIN:A" ++ [LF] ++ lit "BEGIN:B" ++ [LF] ++ lit "X:1" ++ [LF] ++ lit "END:C" ++ [LF].
  Definition open : str := lit "BEGIN:A" ++ [LF] ++ lit "BEGIN:B" ++ [LF] ++ lit "X:1" ++ [LF].
  Example C79_example :
    (* the wrong END, one component inside of another *)
    text_fails_with mis [(lit "C" ++ [LF], VNom KTag); (lit "C" ++ [LF], VContext "mismatching end");
                         (lit "BEGIN:B" ++ [LF] ++ lit "X:1" ++ [LF] ++ lit "END:C" ++ [LF], VContext "component")]
    (* no END: the inner BEGIN cannot be a property *)
    /\ text_fails_with open (property_stack (lit "BEGIN:B" ++ [LF] ++ lit "X:1" ++ [LF]) (lit "BEGIN:B" ++ [LF] ++ lit "X:1" ++ [LF])
                             ++ [(lit "BEGIN:B" ++ [LF] ++ lit "X:1" ++ [LF], VContext "component")])
    /\ text_none_with (lit "BEGIN:A" ++ [LF] ++ lit "X:1" ++ [LF]) [([], VNom KManyTill)]
    /\ text_none_with ([CR; LF] ++ lit "X:1") [(lit "X:1", VNom KTag)]
    /\ reserved_at ([SP; LF] ++ lit "ENDX:1") (lit "ENDX:1")
    /\ read_calendar_s mis = Err (lit "error: 0: at line 4, in Tag:" ++ [LF] ++ lit "END:C" ++ [LF] ++ lit "    ^" ++ [LF; LF]
         ++ lit "1: at line 4, in mismatching end:" ++ [LF] ++ lit "END:C" ++ [LF] ++ lit "    ^" ++ [LF; LF]
         ++ lit "2: at line 2, in component:" ++ [LF] ++ lit "BEGIN:B" ++ [LF] ++ lit "^" ++ [LF; LF]).
  Proof.
    split; [|split; [|split; [|split; [|split]]]].
    - apply C79_entries. vm_compute. reflexivity.
    - apply C79_entries. vm_compute. reflexivity.
    - apply component_err. vm_compute. reflexivity.
    - apply component_err. vm_compute. reflexivity.
    - exists [SP; LF], (lit "X:1"). split; [apply Forall_forall; intros c I; cbn in I |- *; intuition|]. split; [reflexivity|]. now left.
    - vm_compute. reflexivity.
  Qed.
End Example.
