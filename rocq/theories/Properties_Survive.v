(** C90: exactly which components and calendars are read back from their own text. *)
From Verif Require Import Str StrFacts Spec Fold UnfoldProofs Text TextProofs ValueTypes Property Chrono DateTime Component Alarm Calendar Nom Parser
  SpecBuild SpecDate SpecTree SpecDoc SpecConv SpecRound SpecExact SpecAccess SpecAlike SpecShape SpecSurvive
  ParserProofs RoundProofs RoundChecks ShapeProofs SurviveProofs Properties_Build Properties_Round.

(** A TEXT value comes back as it was exactly if it is not confused (C06). *)
Theorem C90_text : forall v, garbled v v <-> ~ confused v.
Proof. exact garbled_same. Qed.
Print Assumptions C90_text.

(** Read back up to a DTSTAMP and a UID where there are none. *)
Theorem C90_component : forall {U : Unicode} e x n s n', clock_ok e -> made (cc_inner x) -> inner_all line_tame (cc_inner x) ->
  cc_write e x n = Ret (s, n') ->
  ((exists d, cc_from_str s = Ok d /\ cc_stamped e x d) <-> comp_ok x).
Proof. intros U e x n s n' C M T W. now apply (comp_exact e x n s n'). Qed.
Print Assumptions C90_component.
Theorem C90_calendar : forall {U : Unicode} e c s, clock_ok e -> Forall (fun x => made (cc_inner x)) (c_comps c) -> cal_all line_tame c ->
  cal_write e c = Ret s ->
  ((exists d, calendar_from_str s = Ok d /\ c_props d = c_props c /\ Forall2 (cc_stamped e) (c_comps c) (c_comps d)) <-> cal_ok c).
Proof. intros U e c s C M T W. now apply (cal_exact e c s). Qed.
Print Assumptions C90_calendar.

(** Read back equal, in the sense of the derived equality; then not even the order of parameters has changed. *)
Theorem C90_same_component : forall {U : Unicode} e x n s n', clock_ok e -> made (cc_inner x) -> inner_all line_tame (cc_inner x) ->
  cc_write e x n = Ret (s, n') ->
  ((exists d, cc_from_str s = Ok d /\ same_cc d x) <-> comp_ok x /\ has_stamps (cc_inner x))
  /\ (cc_from_str s = Ok x <-> comp_ok x /\ has_stamps (cc_inner x)).
Proof. intros U e x n s n' C M T W. now apply (comp_exact e x n s n'). Qed.
Print Assumptions C90_same_component.
Theorem C90_same_calendar : forall {U : Unicode} e c s, clock_ok e -> Forall (fun x => made (cc_inner x)) (c_comps c) -> cal_all line_tame c ->
  cal_write e c = Ret s ->
  ((exists d, calendar_from_str s = Ok d /\ same_cal d c) <-> cal_ok c /\ Forall (fun x => has_stamps (cc_inner x)) (c_comps c))
  /\ (calendar_from_str s = Ok c <-> cal_ok c /\ Forall (fun x => has_stamps (cc_inner x)) (c_comps c)).
Proof. intros U e c s C M T W. now apply (cal_exact e c s). Qed.
Print Assumptions C90_same_calendar.

(** The condition in terms of what can be read from any text at all (C87). *)
Theorem C90_shape : forall {U : Unicode} c, Forall (fun x => made (cc_inner x)) (c_comps c) -> cal_all line_tame c ->
  (cal_ok c <-> cal_shape c /\ cal_all (fun p => is_text p -> ~ confused (p_val p)) c).
Proof. exact @tame_shape. Qed.
Print Assumptions C90_shape.

(** Both sides: a calendar with three components that is read back up to stamps; components that are not read back, one for each reason: a
    multi-valued property under a name the parser does not know as multi-valued, a TEXT value with a backslash before [n], a name with a space,
    a component of another kind that calls itself an event, a parameter value with both a double quote and a colon, no UID. *)
Section Some.
  Local Existing Instance some_unicode.
  Example C90_example : Forall (fun x => made (cc_inner x)) (c_comps some_cal) /\ cal_all line_tame some_cal /\ cal_ok some_cal
    /\ exists s, cal_write some_env some_cal = Ret s /\ calendar_from_str s <> Ok some_cal.
  Proof.
    split; [apply some_cal_made|]. split; [apply (cal_all_check line_tameb); [apply line_tameb_spec|now vm_compute|now vm_compute]|].
    split; [apply some_cal_ok|]. eexists. split; [vm_compute; reflexivity|]. vm_compute. discriminate.
  Qed.
  Definition stamps : list call := [KTimestamp (now_at some_env 0); KUid (lit "u")].
  Definition kept_one : cal_component := CEvent (run_calls (stamps ++ [KAppend some_prop; KAddMulti (lit "ATTACH") (lit "a")]) inner_new).
  Definition lost : list cal_component :=
    [CEvent (run_calls (stamps ++ [KAddMulti (lit "X-TAG") (lit "a")]) inner_new);
     CEvent (run_calls (stamps ++ [KSummary (lit "c:\new")]) inner_new);
     CEvent (run_calls (stamps ++ [KAdd (lit "X Y") (lit "a")]) inner_new);
     COther (lit "VEVENT", run_calls stamps inner_new);
     CEvent (run_calls (stamps ++ [KAppend (mk_property (lit "X-A") [] [(lit "CN", lit "a"":b")])]) inner_new);
     CEvent (run_calls [KTimestamp (now_at some_env 0)] inner_new)].
  Lemma calls_made : forall l, forallb (fun c => match subs c with [] => true | _ => false end) l = true -> made (run_calls l inner_new).
  Proof.
    intros l H. assert (H' : Forall (fun c => subs c = []) l).
    { rewrite forallb_forall in H. apply Forall_forall. intros c I. specialize (H c I). now destruct (subs c). }
    revert H'. clear H. unfold run_calls. assert (G : forall l i, made i -> Forall (fun c => subs c = []) l -> made (fold_left do_call l i)).
    { clear. induction l as [|c l IH]; intros i M F; [exact M|]. inversion F as [|? ? E F']; subst. cbn [fold_left]. apply IH; [|easy].
      apply made_call; [easy|]. rewrite E. constructor. }
    apply G, made_new.
  Qed.
  Example C90_kept_example : made (cc_inner kept_one) /\ inner_all line_tame (cc_inner kept_one) /\ comp_ok kept_one /\ has_stamps (cc_inner kept_one)
    /\ exists s n, cc_write some_env kept_one 0 = Ret (s, n) /\ cc_from_str s = Ok kept_one.
  Proof.
    assert (M : made (cc_inner kept_one)) by (apply calls_made; now vm_compute).
    split; [exact M|]. split; [apply (inner_allb_spec line_tameb); [apply line_tameb_spec|now vm_compute]|].
    split; [split; [exact I|]; split; [exact M|]; apply inner_okb_spec; now vm_compute|].
    split; [constructor; [vm_compute; discriminate|vm_compute; discriminate|constructor]|].
    eexists _, _. split; vm_compute; reflexivity.
  Qed.
  Example C90_lost_example : Forall (fun x => made (cc_inner x) /\ inner_all line_tame (cc_inner x)
    /\ exists s n, cc_write some_env x 0 = Ret (s, n) /\ cc_from_str s <> Ok x) lost.
  Proof.
    unfold lost. repeat apply Forall_cons; try apply Forall_nil; (split; [cbn [cc_inner snd]; apply calls_made; now vm_compute|]);
      (split; [apply (inner_allb_spec line_tameb); [apply line_tameb_spec|now vm_compute]|]);
      eexists _, _; (split; [vm_compute; reflexivity|vm_compute; discriminate]).
  Qed.
  (** Outside of these: a parameter value that starts with a double quote is read back if no other double quote comes after it. *)
  Definition bold_one : cal_component := CEvent (run_calls (stamps ++ [KAppend (mk_property (lit "X-A") (lit "v") [(lit "CN", lit """a")])]) inner_new).
  Example C90_outside_example : ~ comp_ok bold_one /\ exists s n, cc_write some_env bold_one 0 = Ret (s, n) /\ cc_from_str s = Ok bold_one.
  Proof.
    split; [|eexists _, _; split; vm_compute; reflexivity]. intros (_ & _ & O). inversion O as [? O1 O2 O3]; subst.
    destruct (O1 (lit "X-A") (mk_property (lit "X-A") (lit "v") [(lit "CN", lit """a")]) ltac:(vm_compute; reflexivity)) as [_ [(_ & F & _) _]].
    inversion F as [|? ? [_ [_ [P|(_ & _ & P)]]] _]; subst; apply P; [vm_compute; tauto|]. now exists (lit "a").
  Qed.
End Some.
