(** Exact conditions for C28, C55, C57 and C65. *)
From Verif Require Import Str StrFacts Spec Fold ValueTypes Property Chrono DateTime Component Alarm Calendar Nom Parser
  SpecBuild SpecDate SpecTree SpecDoc SpecConv SpecRound SpecExact SpecAlike SpecShape SpecSurvive SpecMore SpecPrecise
  TreeProofs RoundProofs RoundChecks ShapeProofs SurviveProofs PreciseProofs Properties_Build Properties_Round.

(** ** C28 *)
(** One DTSTAMP and one UID, and one for each multi-property of that name; so once exactly if there is no such multi-property. *)
Theorem C28_exact : forall (U : Unicode) e kind i n s n', made i -> clock_ok e -> inner_write e kind i n = Ret (s, n') ->
  exists t, arranged e kind i t /\ text_of t s /\ stamps_counted i t /\ (stamped_once t <-> no_multi_stamp i).
Proof.
  intros U e kind i n s n' M C W. destruct (component_text U e kind i n s n' M C W) as (t & A & T). apply made_well in M.
  pose proof (arranged_counts e t kind i M A) as K. exists t. split; [easy|]. split; [easy|]. split; [easy|]. now apply counted_once.
Qed.
Print Assumptions C28_exact.
Example C28_exact_example :
  let i := run_calls [KAddMulti (lit "UID") (lit "u"); KAddMulti (lit "UID") (lit "v")] inner_new in
  made i /\ ~ no_multi_stamp i /\ length (multis "UID" i) = 2 /\ length (multis "DTSTAMP" i) = 0.
Proof.
  split; [repeat (apply made_call; [|constructor]); apply made_new|]. split; [|now vm_compute]. intros H. inversion H as [? N1 N2 N3]. now vm_compute in N2.
Qed.

(** ** C55 *)
(** Which properties are read the same: a date exactly if the last VALUE is DATE; a UTC time if it is not and there is no TZID;
    a local time if it is not and there is no TZID, or the first TZID has a value which the last says as well.  (A local time
    with VALUE=DATE and a first TZID without a value is read by neither, and so is any other text.) *)
Theorem C55_exact : forall {U : Unicode} q, dpt_from_property (conv_prop q) = dpt_try_from q <->
  (parse_date (pr_val q) <> None -> says_date q)
  /\ (parse_dt_z (pr_val q) <> None -> ~ says_date q /\ no_tzid q)
  /\ (parse_dt (pr_val q) <> None -> (says_date q /\ bare_tzid q) \/ (~ says_date q /\ (no_tzid q \/ one_tzid q))).
Proof. exact @dates_agree. Qed.
Print Assumptions C55_exact.
Section Some.
  Local Existing Instance some_unicode.
  (** Two TZIDs that say the same, and two that do not. *)
  Definition two_zones (a b : str) : pprop := mk_pprop (lit "DTSTART") (lit "20240131T010203") [mk_pparam (lit "TZID") (Some a); mk_pparam (lit "TZID") (Some b)].
  Example C55_exact_example : one_tzid (two_zones (lit "A") (lit "A"))
    /\ dpt_from_property (conv_prop (two_zones (lit "A") (lit "A"))) = dpt_try_from (two_zones (lit "A") (lit "A"))
    /\ ~ one_tzid (two_zones (lit "A") (lit "B"))
    /\ dpt_from_property (conv_prop (two_zones (lit "A") (lit "B"))) <> dpt_try_from (two_zones (lit "A") (lit "B")).
  Proof.
    assert (F : forall a b, first_of pp_key (lit "TZID") (pr_params (two_zones a b)) (mk_pparam (lit "TZID") (Some a))).
    { intros a b. exists [], [mk_pparam (lit "TZID") (Some b)]. now repeat constructor. }
    assert (L : forall a b, last_of pp_key (lit "TZID") (pr_params (two_zones a b)) (mk_pparam (lit "TZID") (Some b))).
    { intros a b. exists [mk_pparam (lit "TZID") (Some a)], []. now repeat constructor. }
    split; [eexists _, _, (lit "A"); split; [apply F|]; split; [apply L|easy]|]. split; [now vm_compute|]. split; [|vm_compute; discriminate].
    intros (a & b & w & A & B & V & S). rewrite (first_one _ _ _ _ _ _ A (F _ _)) in V. rewrite (last_one _ _ _ _ _ _ B (L _ _)) in S.
    injection V as <-. discriminate S.
  Qed.
End Some.

(** ** C57 *)
(** The same value exactly if there is no such property; or the name is not multi-valued, and the first and the last have the same value. *)
Theorem C57_exact : forall c n, property_value (conv_inner c) n = option_map pr_val (find_prop c n) <->
  Forall (fun p => pr_name p <> n) (pc_props c)
  \/ (~ multi_name n /\ exists p q, first_of pr_name n (pc_props c) p /\ last_of pr_name n (pc_props c) q /\ pr_val p = pr_val q).
Proof. exact find_prop_exact. Qed.
Print Assumptions C57_exact.
Example C57_exact_example : let p := mk_pprop (lit "SUMMARY") (lit "a") [] in let r := mk_pprop (lit "SUMMARY") (lit "b") [] in
  let c := mk_pcomp (lit "VEVENT") [p; r; p] [] in
  first_of pr_name (lit "SUMMARY") (pc_props c) p /\ last_of pr_name (lit "SUMMARY") (pc_props c) p
  /\ property_value (conv_inner c) (lit "SUMMARY") = Some (lit "a") /\ find_prop c (lit "SUMMARY") = Some p.
Proof.
  cbn zeta. split; [eexists [], _; now repeat constructor|]. split; [eexists [_; _], []; now repeat constructor|]. split; now vm_compute.
Qed.

(** ** C65 *)
(** Which accepted documents are kept when they are written and read again, if their lines stand for themselves ([line_tame], C90):
    those without TEXT values that have a backslash directly before [:], [N] or [n]; up to a DTSTAMP and a UID where there are none. *)
Theorem C65_exact : forall {U : Unicode} e doc c s, clock_ok e -> calendar_from_str doc = Ok c -> cal_all line_tame c -> cal_write e c = Ret s ->
  ((exists d, calendar_from_str s = Ok d /\ c_props d = c_props c /\ Forall2 (cc_stamped e) (c_comps c) (c_comps d))
     <-> cal_all (fun p => is_text p -> ~ confused (p_val p)) c)
  /\ (calendar_from_str s = Ok c
     <-> cal_all (fun p => is_text p -> ~ confused (p_val p)) c /\ Forall (fun x => has_stamps (cc_inner x)) (c_comps c)).
Proof.
  intros U e doc c s C R T W. pose proof (parsed_made doc c R) as M. pose proof (calendar_shape doc c R) as S.
  pose proof (tame_shape c M T) as E. destruct (cal_exact e c s C M T W) as (A & _ & B). rewrite A, B, E. tauto.
Qed.
Print Assumptions C65_exact.
Section Some2.
  Local Existing Instance some_unicode.
  Definition kept_doc : str := lit "BEGIN:VCALENDAR" ++ crlf ++ lit "X-A;P=q:a" ++ crlf ++ lit "BEGIN:VEVENT" ++ crlf
    ++ lit "DTSTAMP:20240101T000000Z" ++ crlf ++ lit "UID:u" ++ crlf ++ lit "SUMMARY:a\, b\\c" ++ crlf ++ lit "END:VEVENT" ++ crlf ++ lit "END:VCALENDAR" ++ crlf.
  Example C65_exact_example : exists c s, calendar_from_str kept_doc = Ok c /\ cal_all line_tame c /\ Forall (fun x => has_stamps (cc_inner x)) (c_comps c)
    /\ cal_all (fun p => is_text p -> ~ confused (p_val p)) c /\ cal_write some_env c = Ret s /\ calendar_from_str s = Ok c.
  Proof.
    eexists _, _. split; [vm_compute; reflexivity|]. split; [apply (cal_all_check line_tameb); [apply line_tameb_spec|now vm_compute|now vm_compute]|].
    split; [repeat constructor; vm_compute; discriminate|].
    assert (Q : forall c, cal_all line_tame c -> forall s, clock_ok some_env -> calendar_from_str kept_doc = Ok c -> cal_write some_env c = Ret s ->
      calendar_from_str s = Ok c -> cal_all (fun p => is_text p -> ~ confused (p_val p)) c).
    { intros c T s C R W K. now apply (C65_exact some_env kept_doc c s C R T W). }
    split; [|split; vm_compute; reflexivity].
    eapply Q; [|apply some_env_ok|vm_compute; reflexivity|vm_compute; reflexivity|vm_compute; reflexivity].
    apply (cal_all_check line_tameb); [apply line_tameb_spec|now vm_compute|now vm_compute].
  Qed.
End Some2.
