(** C53: error messages. *)
From Verif Require Import Str Spec Fold ValueTypes Property Chrono DateTime Component Alarm Calendar Nom Parser
  SpecDoc ErrorText SpecError StrFacts FoldProofs MessageProofs Properties_Build.

(** ** C53 *)
(** Every function that reports a [String] succeeds exactly when the function with the structured error does,
    and its message lists the entries of that error, each with its number, the number of the line its
    location is in, that line, and a caret in the column of the location - counted in octets. *)
Theorem C53_message_partial : forall {U : Unicode} i,
  reported octets i (read_calendar i) (read_calendar_s i)
  /\ reported octets i (read_components i) (read_components_s i)
  /\ reported octets i (read_component i) (read_component_s i)
  /\ reported octets i (read_property i) (read_property_s i)
  /\ reported octets i (read_parameter i) (read_parameter_s i)
  /\ reported octets (unfold i) (calendar_from_str i) (calendar_from_str_s i)
  /\ reported octets (unfold i) (cc_from_str i) (cc_from_str_s i)
  /\ reported octets i (property_from_str i) (property_from_str_s i).
Proof. exact @messages. Qed.
Print Assumptions C53_message_partial.

(** For ASCII texts that is the column in characters: the caret stands under the location. *)
Theorem C53_caret_partial : forall A i (r : result A verror) r', Forall (fun c => (c < 128)%N) i ->
  reported octets i r r' -> reported (@length N) i r r'.
Proof. exact @reported_ascii. Qed.
Print Assumptions C53_caret_partial.

(** Row, column and line of a location are unique, so there is only one right message. *)
Theorem C53_unique_partial : forall width input sub row col l row' col' l',
  position width input sub row col l -> position width input sub row' col' l' -> row = row' /\ col = col' /\ l = l'.
Proof. exact position_unique. Qed.
Print Assumptions C53_unique_partial.

(** In general the caret does not stand under the location: an e-acute (two octets) in front of it moves it. *)
Definition accents : Unicode := {| alnum_hi c := (c =? 233)%N; lower_hi _ := true; tolower_hi c := [c] |}.
Definition accent_doc : str := lit "BEGIN:A" ++ [LF; 233%N] ++ lit "!" ++ [LF] ++ lit "END:A".
Theorem C53_caret_refuted : exists (U : Unicode) i, ~ reported (@length N) i (read_component i) (read_component_s i).
Proof.
  exists accents, accent_doc. intros (_ & H).
  assert (E : read_component_s (U := accents) accent_doc
    = Err (lit "error: 0: at line 2, in ManyTill:" ++ [LF; 233%N] ++ lit "!" ++ [LF] ++ lit "  ^" ++ [LF; LF])) by now vm_compute.
  destruct (H _ E) as (e & R & t & T & M & _). assert (e = [(lit "!" ++ [LF] ++ lit "END:A", VNom KManyTill)]) as ->.
  { vm_compute in R. injection R as <-. now vm_compute. }
  apply app_inv_head with (l := lit "error: ") (l1 := lit "0: at line 2, in ManyTill:" ++ [LF; 233%N] ++ lit "!" ++ [LF] ++ lit "  ^" ++ [LF; LF]) in T.
  specialize (M ltac:(discriminate)). inversion M as [|? ? ? ? row col l nk nrow text P N1 N2 M' Q1 Q2 Q3].
  inversion M' as [|]. match goal with Q : [] = text |- _ => rewrite <- Q in Q3 end. rewrite <- Q3 in T. clear - T P N1 N2.
  assert (P' : position (@length N) accent_doc (lit "!" ++ [LF] ++ lit "END:A") 2 2 [233%N; 33%N]).
  { exists (lit "BEGIN:A" ++ [LF]), [233%N], [233%N; 33%N]. repeat apply conj; try easy.
    - right. now exists (lit "BEGIN:A").
    - now intros [I|[]].
    - now intros [I|[I|[]]].
    - right. now exists (lit "END:A").
    - exists []. split; [easy|constructor].
    - right. now exists [233%N], 33%N. }
  destruct (position_unique _ _ _ _ _ _ _ _ _ P P') as (-> & -> & ->).
  apply number_short in N1; [|repeat constructor]. apply number_short in N2; [|repeat constructor].
  apply (f_equal (@length N)) in T. rewrite !app_length, N1, N2 in T. vm_compute in T. discriminate T.
Qed.
Print Assumptions C53_caret_refuted.

Local Existing Instance some_unicode.
Example C53_example : exists m, read_calendar_s (lit "BEGIN:VCALENDAR" ++ [CR; LF] ++ lit "X:1" ++ [CR; LF] ++ lit "END:VEVENT") = Err m
  /\ m = lit "error: 0: at line 3, in Tag:" ++ [LF] ++ lit "END:VEVENT" ++ [LF] ++ lit "    ^" ++ [LF; LF]
      ++ lit "1: at line 3, in mismatching end:" ++ [LF] ++ lit "END:VEVENT" ++ [LF] ++ lit "    ^" ++ [LF; LF].
Proof. eexists. split; now vm_compute. Qed.
