(** C16-C22, C28, C29: building and writing components. *)
From Verif Require Import Str Spec ValueTypes Property Chrono DateTime Component Alarm Calendar Nom Parser
  SpecBuild SpecDate SpecTree StrFacts BuildProofs DateProofs SetterProofs TreeProofs.

(** ** C16 *)
Theorem C16_last_write_wins : forall l k,
  map_get k (i_props (run_calls l inner_new)) = last_with k (flat_map sets l)
  /\ property_value (run_calls l inner_new) k = option_map p_val (last_with k (flat_map sets l)).
Proof. exact last_write_wins. Qed.
Print Assumptions C16_last_write_wins.
(** The same on top of any component. *)
Theorem C16_later_calls : forall l i k, map_get k (i_props (run_calls l i))
  = match last_with k (flat_map sets l) with Some p => Some p | None => map_get k (i_props i) end.
Proof. exact get_calls. Qed.
Print Assumptions C16_later_calls.

Example C16_example :
  let l := [KSummary (lit "a"); KUid (lit "u"); KAdd (lit "SUMMARY") (lit "b"); KMulti (prop_new (lit "UID") (lit "v"));
            KVenue (lit "here") (lit "v1")] in
  property_value (run_calls l inner_new) (lit "SUMMARY") = Some (lit "b")
  /\ property_value (run_calls l inner_new) (lit "UID") = Some (lit "u")
  /\ map_get (lit "LOCATION") (i_props (run_calls l inner_new))
     = Some (mk_property (lit "LOCATION") (lit "here") [(lit "VVENUE", lit "v1")])
  /\ property_value (run_calls l inner_new) (lit "URL") = None.
Proof. repeat split. Qed.

(** ** C17 *)
Theorem C17_multi_order : forall l k,
  map_get k (i_multi (run_calls l inner_new))
  = match filter (fun q => str_eqb (p_key q) k) (flat_map multis l) with
    | [] => None
    | ps => Some ps
    end.
Proof. exact multi_order. Qed.
Print Assumptions C17_multi_order.

Example C17_example :
  let a n := prop_new (lit "ATTENDEE") (lit n) in
  let l := [KMulti (a "x"); KSummary (lit "s"); KAddMulti (lit "COMMENT") (lit "c"); KMulti (a "y"); KMulti (a "x")]%string in
  map_get (lit "ATTENDEE") (i_multi (run_calls l inner_new)) = Some [a "x"; a "y"; a "x"]%string.
Proof. reflexivity. Qed.

(** ** C18 *)
Theorem C18_component_text : forall (U : Unicode) e kind i n s n', made i -> clock_ok e ->
  inner_write e kind i n = Ret (s, n') -> exists t, arranged e kind i t /\ text_of t s.
Proof. exact component_text. Qed.
Print Assumptions C18_component_text.
(** The sub-components are those added, in the order of the calls. *)
Theorem C18_insertion_order : forall l i, i_comps (run_calls l i) = i_comps i ++ flat_map subs l.
Proof. exact comps_calls. Qed.
Print Assumptions C18_insertion_order.

Definition some_env : env :=
  mk_env (fun n => mk_dt (mk_date 2024 2 29) (mk_time 12 0 (N.of_nat n mod 60) 0)) (fun n => N.of_nat n).
Lemma some_env_ok : clock_ok some_env.
Proof.
  intros n. split; [|cbn; lia]. split.
  - apply real_date_spec. now split.
  - cbn. unfold real_time. cbn. pose proof (N.mod_lt (N.of_nat n) 60 ltac:(easy)). lia.
Qed.
Definition some_calls : list call :=
  [KSummary (lit "s"); KAddMulti (lit "COMMENT") (lit "c2"); KAddMulti (lit "COMMENT") (lit "c1");
   KAddMulti (lit "ATTACH") (lit "x"); KDescription (lit "d");
   KAlarm (alarm_display (lit "wake") (after_start 60000000000%Z))].
Lemma some_calls_made : made (run_calls some_calls inner_new).
Proof.
  repeat (apply made_call; [|repeat constructor; cbn [snd]]); try apply made_new.
  unfold alarm_display, add_property.
  apply (made_call _ (KAppend _)); [|constructor]. apply (made_call _ (KAppend _)); [|constructor].
  apply (made_call _ (KAppend _)); [|constructor]. apply made_new.
Qed.
Local Instance some_unicode : Unicode := {| alnum_hi _ := false; lower_hi _ := false; tolower_hi c := [c] |}.
Example C18_example : made (run_calls some_calls inner_new) /\ clock_ok some_env
  /\ inner_write some_env (lit "VEVENT") (run_calls some_calls inner_new) 0
  = Ret (concat (map (fun l => lit l ++ crlf)
      ["BEGIN:VEVENT"; "DTSTAMP:20240229T120000Z"; "DESCRIPTION:d"; "SUMMARY:s";
       "UID:00000000-0000-0000-0000-000000000001"; "ATTACH:x"; "COMMENT:c2"; "COMMENT:c1";
       "BEGIN:VALARM"; "DTSTAMP:20240229T120002Z"; "ACTION:DISPLAY"; "DESCRIPTION:wake";
       "TRIGGER;RELATED=START:PT60S"; "UID:00000000-0000-0000-0000-000000000003"; "END:VALARM"; "END:VEVENT"]%string), 4).
Proof. split; [apply some_calls_made|]. split; [apply some_env_ok|]. vm_compute. reflexivity. Qed.

(** ** C19 *)
Theorem C19_done : (forall i, inner_done i = (i, inner_new)) /\ (forall p, prop_done p = (p, mk_property [] [] []))
  /\ (forall c, cal_done c = (c, mk_calendar [] [])).
Proof. repeat split. Qed.
Print Assumptions C19_done.

Example C19_example : snd (inner_done (run_calls some_calls inner_new)) = mk_inner [] [] []
  /\ fst (inner_done (run_calls some_calls inner_new)) <> mk_inner [] [] [].
Proof. split; [reflexivity|discriminate]. Qed.

(** ** C20 *)
Theorem C20_priority :
  (forall i n, get_priority (priority i n) = Some (N.min n 10))
  /\ (forall i n, get_priority i = Some n <->
        exists s, property_value i (lit "PRIORITY") = Some s /\ (n <= 10)%N /\ numeral s n).
Proof. exact (conj priority_round get_priority_spec). Qed.
Print Assumptions C20_priority.

Example C20_example : get_priority (priority inner_new 4294967295) = Some 10%N
  /\ get_priority (priority inner_new 7) = Some 7%N
  /\ get_priority (add_property inner_new (lit "PRIORITY") (lit "11")) = None.
Proof. repeat split. Qed.

(** ** C21 *)
Theorem C21_integers :
  (forall i n, (n <= U32_MAX)%N -> get_sequence (sequence i n) = Some n)
  /\ (forall i n, (n <= U8_MAX)%N -> get_percent_complete (percent_complete i n) = Some n)
  /\ (forall i n, get_sequence i = Some n <->
        exists s, property_value i (lit "SEQUENCE") = Some s /\ (n <= 4294967295)%N /\ numeral s n)
  /\ (forall i n, get_percent_complete i = Some n <->
        exists s, property_value i (lit "PERCENT-COMPLETE") = Some s /\ (n <= 255)%N /\ numeral s n).
Proof. exact (conj sequence_round (conj percent_round (conj get_sequence_spec get_percent_spec))). Qed.
Print Assumptions C21_integers.

Example C21_example : get_sequence (sequence inner_new 4294967295) = Some 4294967295%N
  /\ get_percent_complete (percent_complete inner_new 255) = Some 255%N
  /\ get_sequence (add_property inner_new (lit "SEQUENCE") (lit "4294967296")) = None
  /\ get_sequence (add_property inner_new (lit "SEQUENCE") (lit "1x")) = None
  /\ get_percent_complete (add_property inner_new (lit "PERCENT-COMPLETE") (lit "256")) = None.
Proof. repeat split. Qed.

(** ** C22 *)
Theorem C22_words :
  (forall i c, get_class (set_class i c) = Some c)
  /\ (forall i c, event_get_status (event_set_status i c) = Some c)
  /\ (forall i c, todo_get_status (todo_set_status i c) = Some c)
  /\ (forall i c, get_class i = Some c <-> property_value i (lit "CLASS") = Some (lit (class_text c)))
  /\ (forall i c, event_get_status i = Some c
        <-> property_value i (lit "STATUS") = Some (lit (event_status_text c)))
  /\ (forall i c, todo_get_status i = Some c
        <-> property_value i (lit "STATUS") = Some (lit (todo_status_text c))).
Proof.
  exact (conj class_round (conj event_status_round (conj todo_status_round
        (conj class_spec (conj event_status_spec todo_status_spec))))).
Qed.
Print Assumptions C22_words.

Example C22_example :
  todo_get_status (todo_set_status (todo_set_status inner_new NeedsAction) InProcess) = Some InProcess
  /\ event_get_status (todo_set_status inner_new NeedsAction) = None
  /\ get_class (add_property inner_new (lit "CLASS") (lit "public")) = None.
Proof. repeat split. Qed.

(** ** C28: false as stated: a multi-property may be called UID. *)
Theorem C28_stamped_once_refuted : exists (U : Unicode) e kind i n s n' t, made i /\ clock_ok e
  /\ inner_write e kind i n = Ret (s, n') /\ arranged e kind i t /\ text_of t s
  /\ count_key "UID" (t_props t) = 2.
Proof.
  pose (i := run_calls [KAddMulti (lit "UID") (lit "u")] inner_new).
  assert (M : made i) by (apply made_call; [apply made_new|constructor]).
  exists some_unicode, some_env, (lit "VEVENT"), i, 0.
  pose proof (inner_write_tree (U := some_unicode) some_env some_env_ok i (lit "VEVENT") 0) as E.
  eexists _, _, (fst (stamp_tree some_env (lit "VEVENT") i 0)).
  split; [exact M|]. split; [apply some_env_ok|]. split; [vm_compute; reflexivity|].
  split; [now apply stamp_tree_arranged, made_well|]. split; [|reflexivity].
  apply tree_write_spec. vm_compute. reflexivity.
Qed.
Print Assumptions C28_stamped_once_refuted.
(** True of components none of whose multi-properties is called DTSTAMP or UID. *)
Theorem C28_stamped_once_partial : forall (U : Unicode) e kind i n s n', made i -> clock_ok e ->
  no_multi_stamp i -> inner_write e kind i n = Ret (s, n') ->
  exists t, arranged e kind i t /\ text_of t s /\ stamped_once t.
Proof. exact component_stamped. Qed.
Print Assumptions C28_stamped_once_partial.

Example C28_example : made (run_calls some_calls inner_new) /\ no_multi_stamp (run_calls some_calls inner_new).
Proof. split; [apply some_calls_made|]. constructor; try reflexivity. repeat constructor. Qed.

(** ** C29: false: both use LAST_MODIFIED, so the RFC 5545 property is neither written nor read. *)
Theorem C29_last_modified_refuted :
  (forall i d, map_get (lit "LAST-MODIFIED") (i_props (last_modified i d)) = map_get (lit "LAST-MODIFIED") (i_props i))
  /\ (forall i p, p_key p = lit "LAST-MODIFIED" -> get_last_modified (append_property i p) = get_last_modified i).
Proof. exact last_modified_wrong. Qed.
Print Assumptions C29_last_modified_refuted.
Example C29_example :
  get_last_modified (append_property inner_new (prop_new (lit "LAST-MODIFIED") (lit "20240101T000000Z"))) = None.
Proof. reflexivity. Qed.
