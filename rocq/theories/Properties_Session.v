(** Long sessions: C103. *)
From Verif Require Import Str StrFacts Spec Fold UnfoldProofs Text ValueTypes Property Chrono DateTime Component Alarm Calendar Nom Parser
  SpecBuild SpecDate SpecTree SpecDoc SpecConv SpecCal SpecRound SpecExact SpecShape SpecSession BuildProofs TreeProofs ParserProofs DocProofs RoundProofs ExactProofs
  RoundChecks ShapeProofs SessionProofs Properties_Build.

(** C103. However long a program builds, edits, saves and loads calendars: what it saves can be loaded, and nothing is lost but the
    distinctions of C64.  What is loaded can be edited and saved further. *)
Theorem C103_loads : forall {U : Unicode} e c s, cal_session c -> clock_ok e -> cal_write e c = Ret s ->
  exists d, calendar_from_str s = Ok d /\ cal_session d /\ Forall2 reread (c_props c) (c_props d) /\ Forall2 (comp_reread e) (c_comps c) (c_comps d).
Proof. exact @session_loads. Qed.
Print Assumptions C103_loads.
(** The same of components that are saved alone. *)
Theorem C103_component : forall {U : Unicode} e x n s m, comp_session (cc_inner x) -> name_ok (cc_kind x) -> clock_ok e -> cc_write e x n = Ret (s, m) ->
  exists y, cc_from_str s = Ok y /\ comp_reread e x y.
Proof.
  intros U e x n s m S N C W. destruct (proj1 session_good _ S) as [M F]. apply (comp_reads e x n s m C); [|exact W]. now split.
Qed.
Print Assumptions C103_component.
(** The invariant. *)
Theorem C103_invariant : forall {U : Unicode}, (forall i, comp_session i -> made i /\ inner_fine i) /\ (forall c, cal_session c -> cal_fine c).
Proof. intros U. apply session_good. Qed.
Print Assumptions C103_invariant.
(** Every calendar that is read can be the start of a session if its properties are as C65 wants them; those of a document without
    backslashes and double quotes are, with few exceptions. *)
Theorem C103_import : forall {U : Unicode} s c, calendar_from_str s = Ok c -> cal_all prop_quiet c -> cal_session c.
Proof.
  intros U s c R Q. destruct (calendar_quiet_ok s c R Q) as [P F]. apply (sc_imported s); [exact R|]. split; [eapply Forall_impl; [|exact P]; exact prop_ok_fine|].
  eapply Forall_impl; [|exact F]. intros x (K & M & O). split; [|split; [exact M|]].
  - destruct x as [i|i|i|[k i]]; cbn [cc_kind]; try (now apply name_ok_spec). apply K.
  - clear - O. revert O. generalize (cc_inner x). induction i as [ps ms cs IH] using inner_deep. intros O. inversion O as [? O1 O2 O3]; subst. constructor.
    + intros k p G. apply prop_ok_fine, (O1 k p G).
    + intros k l G. eapply Forall_impl; [|apply (O2 k l G)]. exact prop_ok_fine.
    + cbn [i_comps] in *. clear - IH O3. induction O3 as [|o l [N H] _ IHl]; constructor; inversion IH; subst; [split; auto|auto].
Qed.
Print Assumptions C103_import.
Theorem C103_plain_import : forall {U : Unicode} s u c, unfolds s u -> ~ In BSL s -> ~ In DQ s -> mark_free u -> calendar_from_str s = Ok c ->
  cal_all (fun p => map lower_ascii (p_key p) <> lit "end" /\ map lower_ascii (p_key p) <> lit "begin") c -> cal_session c.
Proof. intros U s u c F B D M R N. apply (C103_import s); [exact R|]. now apply (calendar_plain_quiet s u). Qed.
Print Assumptions C103_plain_import.
(** Runs of any length: save, load, edit, save, load, edit, and so on. *)
Theorem C103_runs : forall {U : Unicode} l c, cal_session c ->
  Forall (fun x => clock_ok (fst x) /\ forall d, cal_session d -> cal_session (snd x d)) l -> lives l c.
Proof.
  intros U l. induction l as [|[e f] l IH]; intros c S F; [exact I|]. inversion F as [|? ? [C E] F']; subst. cbn [lives fst snd] in *. intros s W.
  destruct (session_loads e c s S C W) as (d & R & D & _). exists d. split; [exact R|]. apply IH; [now apply E|exact F'].
Qed.
Print Assumptions C103_runs.

(** What is asked of the values that are not TEXT is needed: one URL, name or identifier of a time zone, and what was saved cannot be loaded. *)
Definition noon : ndt := mk_dt (mk_date 2024%Z 2%N 29%N) (mk_time 12%N 0%N 0%N 0%N).
Definition bad_load {U : Unicode} (c : calendar) : bool :=
  match cal_write some_env c with Ret s => match calendar_from_str s with Err _ => true | _ => false end | _ => false end.
Theorem C103_needed : exists v z, forall (U : Unicode),
  bad_load (cal_push cal_new (CEvent (url inner_new v))) = true /\ bad_load (cal_name cal_new v) = true /\ bad_load (cal_timezone cal_new v) = true
  /\ bad_load (cal_push cal_new (CEvent (starts inner_new (DT (WithTimezone noon z))))) = true.
Proof.
  exists (lit "x" ++ [CR; LF] ++ lit "END:X" ++ [CR; LF]), (lit "x" ++ DQ :: lit ":y" ++ [CR; LF] ++ lit "END:X" ++ [CR; LF] ++ lit "X-A:" ++ [DQ]).
  intros U. split; [vm_compute; reflexivity|]. split; [vm_compute; reflexivity|]. split; vm_compute; reflexivity.
Qed.
Print Assumptions C103_needed.

(** An event with a summary that looks like the end of the calendar is saved and loaded; the event is taken out, gets an alarm and a new
    description, and is saved with the old one and loaded again. *)
Section Example103.
  Local Existing Instance some_unicode.
  Definition evil_text : str := lit "x" ++ [CR; LF] ++ lit "END:VEVENT" ++ [CR; LF; SP] ++ lit "END:VCALENDAR\n\".
  Definition first_event : inner := run_calls [KSummary evil_text; KUid evil_text; KStarts (DT (WithTimezone noon (lit "Europe/Berlin"))); KUrl (lit "http://a/;b")] inner_new.
  Definition first_cal : calendar := cal_push (cal_name cal_new (lit "mine")) (CEvent first_event).
  Definition edit_cal (d : calendar) : calendar :=
    match c_comps d with
    | x :: _ => cal_push d (CTodo (alarm (description (cc_inner x) evil_text) (duration_and_repeat (alarm_display evil_text (TDateTime (WithTimezone noon (lit "Europe/Berlin")))) (-1500000000)%Z 3%N)))
    | [] => d
    end.
  Definition go {U : Unicode} (c : calendar) : option calendar :=
    match cal_write some_env c with Ret s => match calendar_from_str s with Ok d => Some d | _ => None end | _ => None end.
  Definition kinds_of (c : calendar) : list (str * nat * nat) := map (fun x => (cc_kind x, length (i_props (cc_inner x)), length (i_comps (cc_inner x)))) (c_comps c).
  Lemma quiet_value : forall s, without [LF; DQ] (lit s) = true -> plain_value (lit s) /\ pvalue_ok (lit s).
  Proof. intros s V. split; [apply lf_plain, (without_spec _ _ V); now left|now apply lit_value]. Qed.
  Lemma first_session : cal_session first_cal.
  Proof.
    apply sc_push; [apply sc_name; [apply sc_new|now apply quiet_value]|now apply name_ok_spec|]. cbn [cc_inner].
    unfold first_event. cbn [run_calls fold_left]. repeat (apply si_call; [|cbn [call_safe zone_safe]; try exact I; now apply quiet_value]). apply si_new.
  Qed.
  Lemma edit_session : forall d, cal_session d -> cal_session (edit_cal d).
  Proof.
    intros d S. unfold edit_cal. destruct (c_comps d) as [|x l] eqn:E; [exact S|]. apply sc_push; [exact S|now apply name_ok_spec|]. cbn [cc_inner]. apply si_alarm.
    - apply (si_call _ (KDescription evil_text)); [|exact I]. apply (si_taken d); [exact S|]. rewrite E. now left.
    - apply si_repeat, (si_start (SDisplay evil_text (TDateTime (WithTimezone noon (lit "Europe/Berlin"))))). cbn [start_trigger trigger_safe zone_safe]. now apply quiet_value.
  Qed.
  Example C103_example : cal_session first_cal /\ lives [(some_env, edit_cal); (some_env, edit_cal); (some_env, fun c => c)] first_cal
    /\ match go first_cal with
       | Some d => kinds_of d = [(lit "VEVENT", 5, 0)]
           /\ match go (edit_cal d) with Some f => kinds_of f = [(lit "VEVENT", 5, 0); (lit "VTODO", 6, 1)] | None => False end
       | None => False
       end.
  Proof.
    split; [apply first_session|]. split; [|vm_compute; now split]. apply C103_runs; [apply first_session|].
    repeat (apply Forall_cons; [split; [apply some_env_ok|]; [intros d D; cbn [snd]; try exact D; now apply edit_session]|]). constructor.
  Qed.
End Example103.
