(** What a change changes in the text: C102. *)
From Verif Require Import Str StrFacts Spec Fold Text ValueTypes Property Chrono DateTime Component Alarm Calendar Nom Parser
  SpecBuild SpecDate SpecTree SpecDiff BuildProofs TreeProofs DiffProofs Properties_Build.

(** C102. A change of a calendar in one place changes the lines of what is changed, and no others: the text before and after stays as it
    was, and writing succeeds as before. *)
Theorem C102_calendar : forall {U : Unicode} e old new c c' s, cal_edited e old new c c' -> Forall (fun x => made (cc_inner x)) (c_comps c) ->
  cal_write e c = Ret s -> exists s', cal_write e c' = Ret s' /\ changed old new s s'.
Proof. exact @cal_changed. Qed.
Print Assumptions C102_calendar.
(** The same of a component that is written alone. *)
Theorem C102_component : forall {U : Unicode} e old new x y, cc_kind x = cc_kind y -> edited e old new (cc_inner x) (cc_inner y) -> made (cc_inner x) ->
  forall n s m, cc_write e x n = Ret (s, m) -> exists s', cc_write e y n = Ret (s', m) /\ changed old new s s'.
Proof. intros U e old new x y K E M n s m W. unfold cc_write in *. rewrite <- K. eapply inner_changed; eauto. now apply made_well. Qed.
Print Assumptions C102_component.
(** A component that is pushed adds its lines before the last one. *)
Theorem C102_push : forall {U : Unicode} e c s, cal_write e c = Ret s -> exists a n, s = a ++ lit "END:VCALENDAR" ++ crlf
  /\ forall x new m, cc_write e x n = Ret (new, m) -> cal_write e (cal_push c x) = Ret (a ++ new ++ lit "END:VCALENDAR" ++ crlf).
Proof. exact @cal_pushed. Qed.
Print Assumptions C102_push.
(** Any setter that sets one property is such a change, also of a component within others. *)
Theorem C102_setters : forall {U : Unicode} e i c q new, sets c = [q] -> prop_write q = Ret new ->
  match map_get (p_key q) (i_props i) with
  | Some p => forall old, prop_write p = Ret old -> edited e old new i (do_call i c)
  | None => p_key q <> lit "DTSTAMP" -> p_key q <> lit "UID" -> edited e [] new i (do_call i c)
  end.
Proof.
  intros U e i c q new S Q. assert (E : do_call i c = append_property i q).
  { pose proof (do_call_sets c i) as A. pose proof (do_call_multi c i) as B. pose proof (do_call_comps c i) as C. rewrite S in A. cbn [fold_left] in A.
    assert (M : multis c = [] /\ subs c = []) by (destruct c; try (now split); discriminate S). destruct M as [M1 M2]. rewrite M1 in B. rewrite M2, app_nil_r in C. cbn [fold_left] in B.
    destruct (do_call i c) as [a b d]. unfold append_property in *. cbn [i_props i_multi i_comps] in *. now subst. }
  rewrite E. destruct (map_get (p_key q) (i_props i)) as [p|] eqn:G.
  - intros old O. now apply ed_replace with (p := p).
  - intros D1 D2. now apply ed_set.
Qed.
Print Assumptions C102_setters.
(** Not so for the UID that takes the place of a generated one: it is in another place, and one line less is generated. *)
Theorem C102_uid : forall {U : Unicode}, exists i s s' n m m' new, inner_write some_env (lit "VEVENT") i n = Ret (s, m)
  /\ inner_write some_env (lit "VEVENT") (uid i (lit "u")) n = Ret (s', m') /\ prop_write (prop_new (lit "UID") (lit "u")) = Ret new
  /\ m' <> m /\ ~ changed [] new s s'.
Proof.
  intros U. exists inner_new. do 2 eexists. exists 0. do 3 eexists. split; [vm_compute; reflexivity|]. split; [vm_compute; reflexivity|]. split; [vm_compute; reflexivity|].
  split; [discriminate|]. intros (_ & _ & a & b & E & E'). apply (f_equal (@length _)) in E, E'. rewrite !app_length in E, E'. cbn [length] in E, E'. lia.
Qed.
Print Assumptions C102_uid.

Section Example102.
  Local Existing Instance some_unicode.
  Let alarm0 : inner := run_calls [KAdd (lit "ACTION") (lit "AUDIO"); KAdd (lit "TRIGGER") (lit "-PT5M")] inner_new.
  Let alarm1 : inner := run_calls [KAdd (lit "ACTION") (lit "AUDIO"); KAdd (lit "TRIGGER") (lit "-PT5M"); KDescription (lit "now")] inner_new.
  Let ev (a : inner) : cal_component := CEvent (run_calls [KSummary (lit "s"); KAlarm a] inner_new).
  Let cal (a : inner) : calendar := mk_calendar [] [CTodo inner_new; ev a; CTodo inner_new].
  Example C102_example : cal_edited some_env [] (lit "DESCRIPTION:now" ++ crlf) (cal alarm0) (cal alarm1)
    /\ Forall (fun x => made (cc_inner x)) (c_comps (cal alarm0)) /\ exists s, cal_write some_env (cal alarm0) = Ret s.
  Proof.
    split; [|split].
    - apply (ce_in _ [] [CTodo inner_new] (ev alarm0) (ev alarm1) [CTodo inner_new]); [reflexivity|].
      apply (ed_in _ (i_props (cc_inner (ev alarm0))) [] [] (lit "VALARM") alarm0 alarm1 []).
      change alarm1 with (append_property alarm0 (prop_new (lit "DESCRIPTION") (lit "now"))). apply ed_set; [reflexivity|discriminate|discriminate|vm_compute; reflexivity].
    - constructor; [apply made_new|]. constructor; [|constructor; [apply made_new|constructor]]. cbn [cc_inner ev].
      assert (A : made alarm0) by (repeat (apply made_call; [|constructor]); apply made_new). apply made_call; [|constructor; [exact A|constructor]]. apply made_call; [apply made_new|constructor].
    - eexists. vm_compute. reflexivity.
  Qed.
End Example102.
