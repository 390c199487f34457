(** C88: what is read is no larger than the text. *)
From Verif Require Import Str StrFacts Spec Fold Text ValueTypes Property Chrono DateTime
  Component Alarm Calendar Nom Parser SpecBuild SpecDate SpecTree SpecDoc SpecRound SpecSize ReadSizeProofs SizeProofs Properties_Build Properties_Size.
From Coq Require Import ZifyBool ZifyNat ZifyN.

(** The names, parameters and values of what is read have no more octets than the text, and there are no more components, properties
    and parameters than octets (and the calendar itself). *)
Theorem C88_calendar : forall {U : Unicode} s c, calendar_from_str s = Ok c -> cal_data c <= octets s /\ cal_items c <= S (octets s).
Proof. exact @calendar_small. Qed.
Print Assumptions C88_calendar.
Theorem C88_component : forall {U : Unicode} s c, cc_from_str s = Ok c -> cc_data c <= octets s /\ inner_items (cc_inner c) <= octets s.
Proof. exact @component_small. Qed.
Print Assumptions C88_component.
Theorem C88_property : forall {U : Unicode} s p, property_from_str s = Ok p -> prop_data p <= octets s /\ length (p_params p) <= octets s.
Proof. exact @property_small. Qed.
Print Assumptions C88_property.
(** So reading and writing again makes the text longer by a constant factor only. *)
Theorem C88_again : forall {U : Unicode} s c e s', calendar_from_str s = Ok c -> clock_ok e -> cal_write e c = Ret s' -> octets s' <= 98 * octets s + 90.
Proof.
  intros U s c e s' H Ce W. apply calendar_small in H as [D I]. pose proof (C85_calendar e c s' Ce W) as S. lia.
Qed.
Print Assumptions C88_again.

(** A long value, and many parameters without a name (of which one is kept). *)
Definition many (n : nat) : str := lit "BEGIN:VCALENDAR" ++ [LF] ++ lit "A" ++ repeat SEMI n ++ lit ":" ++ repeat 97%N n ++ [LF] ++ lit "END:VCALENDAR".
Section Many.
  Local Existing Instance some_unicode.
  Example C88_example : exists c p, property_from_str (lit "A;B=""x"";B=y:a\, b") = Ok p /\ prop_data p = 8 /\ length (p_params p) = 1
    /\ calendar_from_str (many 50) = Ok c /\ cal_data c = 51 /\ cal_items c = 3 /\ octets (many 50) = 132.
  Proof. do 2 eexists. split; [vm_compute; reflexivity|]. split; [vm_compute; reflexivity|]. split; [vm_compute; reflexivity|]. split; [vm_compute; reflexivity|]. now vm_compute. Qed.
End Many.
