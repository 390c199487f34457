(** C89: exactly which properties are read back from their own text; what this says about C42 (names). *)
From Verif Require Import Str StrFacts Spec Fold UnfoldProofs Text TextProofs ValueTypes Property Chrono DateTime Component Alarm Calendar Nom Parser
  SpecBuild SpecDate SpecTree SpecDoc SpecConv SpecRound SpecText SpecItems SpecBack ParserProofs RoundChecks WrittenProofs BackProofs
  Properties_Build Properties_Round.

(** Every property has these parts, and only these. *)
Theorem C89_parts : forall {U : Unicode} p, exists ts w, line_parts p ts w /\ forall ts' w', line_parts p ts' w' -> ts' = ts /\ w' = w.
Proof.
  intros U p. exists (map (fun q => SEMI :: fst q ++ EQUALS :: quote_if_contains_colon (snd q)) (p_params p)), (value_text p).
  assert (H : line_parts p (map (fun q => SEMI :: fst q ++ EQUALS :: quote_if_contains_colon (snd q)) (p_params p)) (value_text p)).
  { split; [|split; intros T].
    - induction (p_params p) as [|q ps IH]; constructor; [apply param_written_text|easy].
    - rewrite (proj1 (RoundProofs.value_text_of p) T). apply text_written_escape.
    - apply (proj2 (RoundProofs.value_text_of p) T). }
  split; [exact H|]. intros ts' w' H'. split; [|now apply (parts_text p ts' w')]. destruct H as [H _]. destruct H' as [H' _].
  revert ts' H'. generalize dependent (map (fun q => SEMI :: fst q ++ EQUALS :: quote_if_contains_colon (snd q)) (p_params p)).
  generalize (p_params p). intros ps ts H. induction H as [|q t ps ts Q _ IH]; intros ts' H'; inversion H'; subst; [easy|].
  f_equal; [now apply (param_written_unique q)|now apply IH].
Qed.
Print Assumptions C89_parts.
(** A property is read back from its text if and only if unfolding the text gives its line again and the parts of the line are as
    [comes_back] says. *)
Theorem C89_exact : forall {U : Unicode} p s ts w, NoDup (map fst (p_params p)) -> line_parts p ts w -> prop_write p = Ret s ->
  ((exists q, property_from_str (unfold s) = Ok q /\ same_property q p)
   <-> unfold s = p_key p ++ concat ts ++ COLON :: w ++ [CR; LF] /\ comes_back p ts w).
Proof. intros U p s ts w N L W. exact (proj1 (back_exact p s ts w N L W)). Qed.
Print Assumptions C89_exact.
(** Then not even the order of its parameters changes. *)
Theorem C89_same : forall {U : Unicode} p s q, NoDup (map fst (p_params p)) -> prop_write p = Ret s ->
  property_from_str (unfold s) = Ok q -> same_property q p -> q = p.
Proof.
  intros U p s q N W Q S. destruct (C89_parts p) as (ts & w & L & _). destruct (back_exact p s ts w N L W) as [H1 H2].
  destruct (proj1 H1 (ex_intro _ q (conj Q S))) as [E C]. specialize (H2 E C). rewrite H2 in Q. now injection Q.
Qed.
Print Assumptions C89_same.
(** Without line feeds, unfolding gives the line again. *)
Theorem C89_no_line_feed : forall {U : Unicode} p s ts w, NoDup (map fst (p_params p)) -> line_parts p ts w -> prop_write p = Ret s ->
  ~ In LF (p_key p) -> Forall (fun q => ~ In LF (fst q) /\ ~ In LF (snd q)) (p_params p) -> (~ is_text p -> ~ In LF (p_val p)) ->
  (property_from_str (unfold s) = Ok p <-> comes_back p ts w).
Proof.
  intros U p s ts w N L W K P V. destruct (printed_line p s K P V W) as [E _]. destruct (parts_text p ts w L) as [L1 L2].
  rewrite <- L1, <- L2 in E. destruct (back_exact p s ts w N L W) as [H1 H2]. split; [|auto]. intros Q. apply H1. exists p. now repeat split.
Qed.
Print Assumptions C89_no_line_feed.

(** The names that [Property::from_str] takes back, exactly. *)
Theorem C42_exact_partial : forall {U : Unicode} k, plain_name k ->
  ((forall v ps s, let p := mk_property k v ps in NoDup (map fst ps) -> Forall (fun q => name_ok (fst q) /\ ~ In DQ (snd q) /\ ~ In LF (snd q)) ps ->
      (is_text p -> ~ confused v) -> (~ is_text p -> ~ In LF v) -> prop_write p = Ret s -> property_from_str (unfold s) = Ok p)
   <-> ~ has_prefix (lit "END") k /\ ~ has_prefix (lit "BEGIN") k).
Proof.
  intros U k K. pose proof (ascii_name k K) as [O _]. split.
  - intros H. destruct (plain_total k K) as [s W]. specialize (H [] [] s (NoDup_nil _) (Forall_nil _)). cbn zeta in H.
    specialize (H ltac:(intros _ ([|] & d & b & E & _); discriminate E) (fun _ => @in_nil _ LF) W).
    split; intros P; [destruct (reserved_name "END" k [] [] s) as [x X]|destruct (reserved_name "BEGIN" k [] [] s) as [x X]]; try easy; try (cbn; tauto); rewrite X in H; discriminate H.
  - intros [P1 P2] v ps s p N F V1 V2 W. destruct (C89_parts p) as (ts & w & L & _).
    apply (C89_no_line_feed p s ts w); try easy.
    + intros I. revert I. apply name_no_special; [easy|]. cbn. auto.
    + cbn [p p_params]. eapply Forall_impl; [|exact F]. intros [a b] (A & _ & B). cbn [fst snd] in *. split; [|easy]. apply name_no_special; [easy|]. cbn. auto.
    + split; [easy|]. split; [easy|]. split; [easy|]. split; [|split; [exact V1|]].
      * clear - F L. destruct L as [L _]. cbn [p p_params] in *. clear p. revert F. induction L as [|[a b] t ps ts Q L IH]; intros F; [constructor|].
        inversion F as [|? ? (A & B & _) F']; subst. constructor; [easy|now left|now apply IH].
      * intros T (a & b & E). apply (V2 T). cbn [p p_val] in E. rewrite E. apply in_or_app. right. right. now left.
Qed.
Print Assumptions C42_exact_partial.

(** A parameter value that starts with a double quote and is read back, and the same value with another double quote later in the line,
    where it is not: there the parser takes [a:mailto:] for a quoted value, finds no colon after it, and keeps the name alone. *)
Definition quoted_one : property := mk_property (lit "ATTENDEE") (lit "mailto:x") [(lit "CN", lit """a")].
Definition quoted_two : property := mk_property (lit "ATTENDEE") (lit "mailto:""x""") [(lit "CN", lit """a")].
Section Some.
  Local Existing Instance some_unicode.
  Example C89_example : exists ts w s, NoDup (map fst (p_params quoted_one)) /\ line_parts quoted_one ts w /\ prop_write quoted_one = Ret s
    /\ unfold s = p_key quoted_one ++ concat ts ++ COLON :: w ++ [CR; LF] /\ comes_back quoted_one ts w.
  Proof.
    exists [lit ";CN=""a"], (lit "mailto:x"). eexists. split; [repeat constructor; intros []|].
    assert (L : line_parts quoted_one [lit ";CN=""a"] (lit "mailto:x")).
    { split; [constructor; [|constructor]|split; [discriminate|reflexivity]]. apply (pw_plain (lit "CN") (lit """a")); intros I; vm_compute in I; intuition discriminate. }
    split; [exact L|]. split; [vm_compute; reflexivity|]. split; [vm_compute; reflexivity|].
    split; [apply name_ok_spec; now vm_compute|]. split; [intros [r E]; vm_compute in E; discriminate E|]. split; [intros [r E]; vm_compute in E; discriminate E|].
    split; [|split; [discriminate|]].
    - constructor; [apply name_ok_spec; now vm_compute| |constructor]. right. split; [intros I; vm_compute in I; intuition discriminate|].
      split; [intros I; vm_compute in I; intuition discriminate|]. intros (x & E & I & _). vm_compute in E. injection E as <-. vm_compute in I. intuition discriminate.
    - intros _ (a & b & E). assert (In LF (p_val quoted_one)) by (rewrite E; apply in_or_app; right; right; now left). vm_compute in H. intuition discriminate.
  Qed.
  Example C89_lost_example : exists s, prop_write quoted_two = Ret s /\ property_from_str (unfold s) = Ok (prop_new (lit "ATTENDEE") []).
  Proof. eexists. split; vm_compute; reflexivity. Qed.
End Some.
