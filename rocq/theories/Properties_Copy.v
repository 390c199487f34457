(** Borrowed and copied strings of a parsed calendar (C92). *)
From Verif Require Import Str StrFacts Spec Text ValueTypes Property Chrono DateTime Component Calendar Nom Parser SpecRound ZeroCopy SpecCopy CopyProofs Properties_Build.

(** Keeping the strings where they are changes nothing. *)
Theorem C92_same : forall {U : Unicode} t,
  rmap cal_text (zread_calendar t) = read_calendar t
  /\ rmap (map comp_text) (zread_components t) = read_components t
  /\ rmap comp_text (zread_component t) = read_component t
  /\ rmap prop_text (zread_property t) = read_property t
  /\ rmap param_text (zread_parameter t) = read_parameter t.
Proof.
  intros U t. split; [apply same_calendar|]. split; [apply same_components|]. split; [apply same_component|]. split; [apply same_property|apply same_parameter].
Qed.
Print Assumptions C92_same.

(** The strings, in the order of the document, lie one after the other in the text. *)
Theorem C92_places : forall {U : Unicode} t,
  (forall c, zread_calendar t = Ok c -> exists l, cal_strings c l /\ laid t 0 l (length t))
  /\ (forall cs, zread_components t = Ok cs -> exists l, mixed [] cs l /\ laid t 0 l (length t))
  /\ (forall c, zread_component t = Ok c -> exists l, comp_strings c l /\ laid t 0 l (length t))
  /\ (forall p, zread_property t = Ok p -> laid t 0 (prop_strings p) (length t))
  /\ (forall q, zread_parameter t = Ok q -> laid t 0 (param_strings q) (length t)).
Proof.
  intros U t. split; [apply placed_calendar|]. split; [apply placed_components|]. split; [apply placed_component|]. split; [apply placed_property|apply placed_parameter].
Qed.
Print Assumptions C92_places.

(** All strings together, with one octet for each copy, are not longer than the text. *)
Theorem C92_octets : forall {U : Unicode} t c, zread_calendar t = Ok c ->
  exists l, cal_strings c l /\ list_sum (map lent l) + list_sum (map copied l) + length (filter is_copy l) <= blen t.
Proof. intros U t c H. apply placed_calendar in H as (l & S & L). exists l. split; [easy|now apply placed_weight]. Qed.
Print Assumptions C92_octets.

(** A text without a backslash is read without copying. *)
Theorem C92_plain : forall {U : Unicode} t c, zread_calendar t = Ok c -> ~ In BSL t ->
  exists l, cal_strings c l /\ laid t 0 l (length t) /\ Forall (fun x => is_copy x = false) l.
Proof. intros U t c H N. apply placed_calendar in H as (l & S & L). exists l. split; [easy|]. split; [easy|]. now apply (placed_plain _ _ _ _ L). Qed.
Print Assumptions C92_plain.

(** Whether a string is borrowed cannot be seen in its text, in comparisons or in what is made of it. *)
Theorem C92_owned : forall c d s,
  (exists o, to_owned c = Owned o /\ o = cow_str c) /\ into_owned c = to_owned c
  /\ (cow_eqb c d = true <-> cow_str c = cow_str d) /\ (cow_is c s = true <-> cow_str c = s)
  /\ cow_str (cow_unescape c) = unescape_text (cow_str c)
  /\ (escapes (cow_str c) -> cow_unescape c = Owned (unescape_text (cow_str c))) /\ (~ escapes (cow_str c) -> cow_unescape c = c).
Proof.
  intros c d s. split; [now exists (cow_str c)|]. split; [now destruct c|]. split; [apply str_eqb_eq|]. split; [apply str_eqb_eq|].
  split; [apply cow_unescape_text|]. split; [apply cow_unescape_copied|apply cow_unescape_kept].
Qed.
Print Assumptions C92_owned.

Section Example_.
  Local Existing Instance some_unicode.
  (** One value is copied, one is a literal of the program, the others are borrowed. *)
  Definition copy_doc : str := lit "BEGIN:VCALENDAR" ++ [LF] ++ lit "BEGIN:VEVENT" ++ [LF] ++ lit "SUMMARY;LANGUAGE=en;X-A=:a\, b" ++ [LF]
    ++ lit "X-NO-VALUE" ++ [LF] ++ lit "END:VEVENT" ++ [LF] ++ lit "PRODID:-//me" ++ [LF] ++ lit "END:VCALENDAR" ++ [LF].
  Example C92_example : forall at_, at_ = (fun n => skipn n copy_doc) ->
    zread_calendar copy_doc = Ok (mk_zcal [mk_zprop (Borrowed (at_ 82) 6) (Borrowed (at_ 89) 5) []]
      [mk_zcomp (Borrowed (at_ 22) 6)
         [mk_zprop (Borrowed (at_ 29) 7) (Owned (lit "a, b")) [mk_zparam (Borrowed (at_ 37) 8) (Some (Borrowed (at_ 46) 2)); mk_zparam (Borrowed (at_ 49) 3) None];
          mk_zprop (Borrowed (at_ 60) 10) (Static []) []] []]).
  Proof. intros at_ ->. vm_compute. reflexivity. Qed.
  Example C92_plain_example : ~ In BSL (lit "BEGIN:VEVENT") /\ zread_calendar (lit "BEGIN:VEVENT" ++ [LF] ++ lit "END:VEVENT") <> OutOfFuel.
  Proof. split; [vm_compute; intuition discriminate|vm_compute; discriminate]. Qed.
End Example_.
