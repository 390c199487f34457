(** C94: an error message is not much longer than the text that was to be read. *)
From Verif Require Import Str Spec Fold ValueTypes Property Component Calendar Nom Parser ErrorText SpecRefused SpecDoc MessageSizeProofs Properties_Build.
From Coq Require Import ZifyBool ZifyNat ZifyN.

(** The length of a message is at most linear in that of the text, but for the digits of the line numbers: [d] of them suffice. *)
Theorem C94_size : forall {U : Unicode} i m d, refused i m -> 1 <= d -> octets i + 5 < 10 ^ d ->
  3 * octets m <= (45 + d) * octets i + 690 + 24 * d.
Proof. intros U i m d H. now apply messages_size. Qed.

(** No text in memory has 2^63 octets. *)
Theorem C94_linear : forall {U : Unicode} i m, refused i m -> (N.of_nat (octets i) < 2 ^ 63)%N -> octets m <= 22 * octets i + 382.
Proof.
  intros U i m H L. assert (D : octets i + 5 < 10 ^ 19).
  { assert (X : (N.of_nat (octets i + 5) < N.of_nat (10 ^ 19))%N); [|lia].
    rewrite Nat2N.inj_add, Nat2N.inj_pow. change (N.of_nat 10 ^ N.of_nat 19)%N with 10000000000000000000%N. change (2 ^ 63)%N with 9223372036854775808%N in L. change (N.of_nat 5) with 5%N. lia. }
  pose proof (C94_size i m 19 H ltac:(lia) D). lia.
Qed.

(** And messages are longer than the texts: for arbitrarily long texts, four times as long. *)
Theorem C94_long : forall {U : Unicode} k, exists i m, k <= octets i /\ read_calendar_s i = Err m /\ 4 * octets i <= octets m.
Proof.
  intros U k. destruct (nest_long k) as (m & H & L). exists (nest (S k)), m. split; [|now split]. rewrite nest_octets. lia.
Qed.
Print Assumptions C94_size.
Print Assumptions C94_linear.
Print Assumptions C94_long.

Section Examples.
  Local Existing Instance some_unicode.
  Definition bad_doc : str := lit "BEGIN:VCALENDAR" ++ [CR; LF] ++ lit "BEGIN:VEVENT" ++ [CR; LF] ++ lit "SUMMARY:x" ++ [CR; LF] ++ lit "END:VCALENDAR" ++ [CR; LF].
  Definition bad_message : str :=
  lit "error: 0: at line 4, in Tag:" ++ [LF] ++ lit "END:VCALENDAR" ++ [LF] ++ lit "    ^" ++ [LF; LF]
  ++ lit "1: at line 4, in mismatching end:" ++ [LF] ++ lit "END:VCALENDAR" ++ [LF] ++ lit "    ^" ++ [LF; LF]
  ++ lit "2: at line 2, in component:" ++ [LF] ++ lit "BEGIN:VEVENT" ++ [LF] ++ lit "^" ++ [LF; LF].
Example C94_example : refused bad_doc bad_message /\ octets bad_doc = 57 /\ octets bad_message = 149.
Proof. split; [left|split]; now vm_compute. Qed.
End Examples.
