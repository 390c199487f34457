(** C78: how writing fails. *)
From Coq Require Import ZifyBool ZifyNat ZifyN.
From Verif Require Import Str StrFacts Spec Fold Text ValueTypes Property Chrono DateTime Component Calendar Nom Parser
  SpecBuild SpecDate SpecTree SpecText SpecFold SpecFail FoldProofs TreeProofs WrittenProofs CutProofs FailProofs Alarm Properties_Build.

(** C78. The folding of a line returns, panics or goes on for ever; one of the three. *)
Theorem C78_three : forall l, (line_returns l /\ ~ line_panics l /\ ~ line_circles l)
  \/ (~ line_returns l /\ line_panics l /\ ~ line_circles l) \/ (~ line_returns l /\ ~ line_panics l /\ line_circles l).
Proof. exact three_ways. Qed.
Print Assumptions C78_three.
(** The writing of a property does what the folding of its line does. *)
Theorem C78_property : forall {U : Unicode} p l, line_written p l ->
  ((exists s, prop_write p = Ret s) <-> line_returns l)
  /\ (prop_write p = Panic <-> line_panics l)
  /\ (prop_write p = NoFuel <-> line_circles l).
Proof. intros U. exact prop_outcome. Qed.
Print Assumptions C78_property.
(** [NoFuel] is no artefact of the fuel: the loop has no end. *)
Theorem C78_for_ever : forall l, line_circles l -> forall fuel, fold_loop fuel l (blen l) 0 LIMIT [] = NoFuel.
Proof. exact circles_for_ever. Qed.
Print Assumptions C78_for_ever.
(** There is one order of writing. *)
Theorem C78_order : (forall i, made i -> exists ps, in_order i ps /\ forall qs, in_order i qs -> qs = ps)
  /\ (forall c, Forall (fun x => made (cc_inner x)) (c_comps c) -> exists ps, cal_in_order c ps /\ forall qs, cal_in_order c qs -> qs = ps)
  /\ (forall c, exists ps, pin_order c ps /\ forall qs, pin_order c qs -> qs = ps).
Proof. split; [exact (proj1 orders)|]. split; [exact cal_orders|exact (proj2 orders)]. Qed.
Print Assumptions C78_order.
(** A component is written if and only if all lines are; otherwise the first bad line decides between panic and no end. *)
Theorem C78_component : forall {U : Unicode} e k i n ps, made i -> in_order i ps ->
  ((exists r, inner_write e k i n = Ret r) <-> all_return line_written ps)
  /\ (inner_write e k i n = Panic <-> first_bad line_written line_panics ps)
  /\ (inner_write e k i n = NoFuel <-> first_bad line_written line_circles ps).
Proof. intros U. exact inner_outcome. Qed.
Print Assumptions C78_component.
Theorem C78_calendar : forall {U : Unicode} e c ps, Forall (fun x => made (cc_inner x)) (c_comps c) -> cal_in_order c ps ->
  ((exists s, cal_write e c = Ret s) <-> all_return line_written ps)
  /\ (cal_write e c = Panic <-> first_bad line_written line_panics ps)
  /\ (cal_write e c = NoFuel <-> first_bad line_written line_circles ps).
Proof. intros U. exact cal_outcome. Qed.
Print Assumptions C78_calendar.
Theorem C78_parsed : forall {U : Unicode} e c ps, pin_order (mk_pcomp (lit "VCALENDAR") (pcal_props c) (pcal_comps c)) ps ->
  ((exists s, pcal_write e c = Ret s) <-> all_return pline_written ps)
  /\ (pcal_write e c = Panic <-> first_bad pline_written line_panics ps)
  /\ (pcal_write e c = NoFuel <-> first_bad pline_written line_circles ps).
Proof. intros U. exact pcal_outcome. Qed.
Print Assumptions C78_parsed.

Section Example.
  Local Existing Instance some_unicode.
  Definition panicking : str := repeat 128512%N 40 ++ repeat 32%N 100.
  Definition hanging : str := repeat 97%N 7 ++ repeat 128512%N 26 ++ repeat 32%N 77.
  Definition bad_event (s d : str) : inner := run_calls [KSummary s; KDescription d; KAlarm (alarm_display (lit "wake") (after_start 60000000000%Z))] inner_new.
  Definition bad_cal (s d : str) : calendar := mk_calendar (c_props cal_new) [CEvent (run_calls some_calls inner_new); CTodo (bad_event s d)].
  (** Descriptions are written before summaries, so the description of the second component decides. *)
  Example C78_example : (forall s d, Forall (fun x => made (cc_inner x)) (c_comps (bad_cal s d)))
    /\ (exists ps, cal_in_order (bad_cal hanging panicking) ps /\ length ps = 16 /\ first_bad line_written line_panics ps)
    /\ (exists ps, cal_in_order (bad_cal hanging (lit "d")) ps /\ first_bad line_written line_circles ps)
    /\ (exists ps, cal_in_order (bad_cal (lit "s") (lit "d")) ps /\ all_return line_written ps)
    /\ (exists ps, pin_order (mk_pcomp (lit "VCALENDAR") [mk_pprop (lit "A") (lit "b") []; mk_pprop (lit "SUMMARY") hanging []] [mk_pcomp (lit "VEVENT") [mk_pprop (lit "SUMMARY") panicking []] []]) ps
         /\ first_bad pline_written line_circles ps).
  Proof.
    assert (M : forall s d, Forall (fun x => made (cc_inner x)) (c_comps (bad_cal s d))).
    { intros s d. constructor; [apply some_calls_made|]. constructor; [|constructor].
      repeat (apply made_call; [|repeat constructor; cbn [snd]]); try apply made_new.
      unfold alarm_display, add_property.
      apply (made_call _ (KAppend _)); [|constructor]. apply (made_call _ (KAppend _)); [|constructor].
      apply (made_call _ (KAppend _)); [|constructor]. apply made_new. }
    split; [exact M|]. split; [|split; [|split]].
    - destruct (cal_orders _ (M hanging panicking)) as (ps & O & _). exists ps. split; [exact O|]. split.
      + apply cal_order_one in O as ->; [vm_compute; reflexivity|apply M].
      + apply (C78_calendar some_env _ ps (M _ _) O). vm_compute. reflexivity.
    - destruct (cal_orders _ (M hanging (lit "d"))) as (ps & O & _). exists ps. split; [exact O|].
      apply (C78_calendar some_env _ ps (M _ _) O). vm_compute. reflexivity.
    - destruct (cal_orders _ (M (lit "s") (lit "d"))) as (ps & O & _). exists ps. split; [exact O|].
      apply (C78_calendar some_env _ ps (M _ _) O). eexists. vm_compute. reflexivity.
    - match goal with |- exists ps, pin_order ?c ps /\ _ => destruct (proj2 orders c) as (ps & O & _) end. exists ps. split; [exact O|].
      apply (C78_parsed some_env (mk_pcal [mk_pprop (lit "A") (lit "b") []; mk_pprop (lit "SUMMARY") hanging []] [mk_pcomp (lit "VEVENT") [mk_pprop (lit "SUMMARY") panicking []] []]) ps O). vm_compute. reflexivity.
  Qed.
End Example.
