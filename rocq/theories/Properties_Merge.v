(** Calendars that are put together: C105. *)
From Verif Require Import Str StrFacts Spec Fold UnfoldProofs Text ValueTypes Property Chrono DateTime Component Alarm Calendar Nom Parser
  SpecBuild SpecDate SpecTree SpecDoc SpecConv SpecCal SpecRound SpecExact SpecShape SpecSession SpecMerge BuildProofs TreeProofs ParserProofs DocProofs RoundProofs ExactProofs
  RoundChecks ShapeProofs SessionProofs MergeProofs Properties_Build Properties_Session.

(** C105. The components of one calendar can be put into another one by [append], by [extend] and one by one: all the same. *)
Theorem C105_ways : forall c d, cal_extend c (c_comps d) = fst (cal_append c d) /\ fold_left cal_push (c_comps d) c = fst (cal_append c d).
Proof.
  intros c d. split; [easy|]. unfold cal_append. cbn [fst]. generalize (c_comps d). intros l. revert c.
  induction l as [|x l IH]; intros [ps cs]; cbn [fold_left c_props c_comps]; [now rewrite app_nil_r|]. rewrite IH. cbn [cal_push c_props c_comps]. now rewrite <- app_assoc.
Qed.
Print Assumptions C105_ways.
(** The text is that of the first calendar with the components' lines of the second one before its last line.  [h] and [k] are the
    texts of the two calendars without components up to the last line; the clock and the random numbers go on after those that the first one took,
    one for each DTSTAMP and each UID it lacks. *)
Theorem C105_text : forall {U : Unicode} e c s, cal_write e c = Ret s -> exists h x, cal_write e (mk_calendar (c_props c) []) = Ret (h ++ foot) /\ s = h ++ x ++ foot
  /\ forall d t, cal_write (later (cal_missing c) e) d = Ret t -> exists k y, cal_write (later (cal_missing c) e) (snd (cal_append c d)) = Ret (k ++ foot) /\ t = k ++ y ++ foot
       /\ cal_write e (fst (cal_append c d)) = Ret (h ++ x ++ y ++ foot).
Proof. exact @merged_text. Qed.
Print Assumptions C105_text.
(** Components with DTSTAMP and UID have the same lines at all times. *)
Theorem C105_stamped_text : forall {U : Unicode} e e' c d s t, clock_ok e -> clock_ok e' -> Forall (fun x => has_stamps (cc_inner x)) (c_comps d) ->
  cal_write e c = Ret s -> cal_write e' d = Ret t ->
  exists h x k y, cal_write e (mk_calendar (c_props c) []) = Ret (h ++ foot) /\ s = h ++ x ++ foot
    /\ cal_write e' (snd (cal_append c d)) = Ret (k ++ foot) /\ t = k ++ y ++ foot /\ cal_write e (fst (cal_append c d)) = Ret (h ++ x ++ y ++ foot).
Proof. exact @stamped_text. Qed.
Print Assumptions C105_stamped_text.
(** Putting together before saving and loading is the same as after it, whatever saving and loading change in either of them. *)
Theorem C105_loads : forall {U : Unicode} e c s, clock_ok e -> cal_fine c -> cal_write e c = Ret s -> forall d t, cal_fine d -> cal_write (later (cal_missing c) e) d = Ret t ->
  exists c' d' s', calendar_from_str s = Ok c' /\ calendar_from_str t = Ok d' /\ cal_write e (fst (cal_append c d)) = Ret s' /\ calendar_from_str s' = Ok (fst (cal_append c' d')).
Proof. exact @merged_loads. Qed.
Print Assumptions C105_loads.
Theorem C105_stamped_loads : forall {U : Unicode} e e' c d s t, clock_ok e -> clock_ok e' -> cal_fine c -> cal_fine d -> Forall (fun x => has_stamps (cc_inner x)) (c_comps d) ->
  cal_write e c = Ret s -> cal_write e' d = Ret t ->
  exists c' d' s', calendar_from_str s = Ok c' /\ calendar_from_str t = Ok d' /\ cal_write e (fst (cal_append c d)) = Ret s' /\ calendar_from_str s' = Ok (fst (cal_append c' d')).
Proof. exact @stamped_loads. Qed.
Print Assumptions C105_stamped_loads.
(** So in sessions of any length (C103). *)
Theorem C105_session : forall {U : Unicode} e e' c d s t, clock_ok e -> clock_ok e' -> cal_session c -> cal_session d -> Forall (fun x => has_stamps (cc_inner x)) (c_comps d) ->
  cal_write e c = Ret s -> cal_write e' d = Ret t ->
  exists c' d' s', calendar_from_str s = Ok c' /\ calendar_from_str t = Ok d' /\ cal_write e (fst (cal_append c d)) = Ret s' /\ calendar_from_str s' = Ok (fst (cal_append c' d')).
Proof. intros U e e' c d s t C C' S S'. apply stamped_loads; try easy; now apply (proj2 session_good). Qed.
Print Assumptions C105_session.
(** Documents from anywhere: a document with the components of another one put at its end is read as the calendars put together, however
    the three are broken into lines. *)
Theorem C105_documents : forall {U : Unicode} t t' t2 y y' y2 s s' s2 u u' u2 b b' b2, doc_merged t t' t2 ->
  wtree_ok y t -> wtree_text y t u -> breaks b -> (y = Lf -> ~ has_crlf u) -> unfolds s (b ++ u) ->
  wtree_ok y' t' -> wtree_text y' t' u' -> breaks b' -> (y' = Lf -> ~ has_crlf u') -> unfolds s' (b' ++ u') ->
  wtree_ok y2 t2 -> wtree_text y2 t2 u2 -> breaks b2 -> (y2 = Lf -> ~ has_crlf u2) -> unfolds s2 (b2 ++ u2) ->
  exists c d, calendar_from_str s = Ok c /\ calendar_from_str s' = Ok d /\ calendar_from_str s2 = Ok (fst (cal_append c d)).
Proof. exact @docs_merged. Qed.
Print Assumptions C105_documents.
(** There is such a document, made from pieces of the two texts. *)
Theorem C105_document_text : forall {U : Unicode} y t t' t2 u u', doc_merged t t' t2 -> wtree_ok y t -> wtree_ok y t' -> wtree_text y t u -> wtree_text y t' u' ->
  wtree_ok y t2 /\ exists a z l, u = a ++ z /\ Forall2 (fun x s => exists w, x = inr w /\ wtree_text y w s) (match t' with W _ b => doc_parts b end) l
    /\ Forall (fun p => exists b d, u' = b ++ p ++ d) l /\ wtree_text y t2 (a ++ concat l ++ z).
Proof. exact @merged_doc. Qed.
Print Assumptions C105_document_text.
(** Without DTSTAMP and UID the clock and the random numbers must go on: the lines of a component need not be those it had alone. *)
Theorem C105_needed : forall {U : Unicode}, exists e c s t, clock_ok e /\ cal_write e c = Ret s /\ cal_write e (fst (cal_append c c)) = Ret t
  /\ ~ exists h x, cal_write e (mk_calendar (c_props c) []) = Ret (h ++ foot) /\ s = h ++ x ++ foot /\ t = h ++ x ++ x ++ foot.
Proof.
  intros U. exists some_env, (mk_calendar [] [CEvent inner_new]). do 2 eexists. split; [apply some_env_ok|].
  split; [vm_compute; reflexivity|]. split; [vm_compute; reflexivity|]. intros (h & x & H & S & T). vm_compute in H. injection H as H.
  assert (L : length h = 17). { apply (f_equal (@length _)) in H. rewrite app_length in H. change (length foot) with 15 in H. cbn [length] in H. lia. }
  apply (f_equal (skipn 17)) in S, T. rewrite skipn_app, L, Nat.sub_diag, (skipn_all2 h) in S, T by lia. cbn [app skipn] in S, T.
  match type of S with ?L = _ => assert (X : x = firstn (length L - length foot) L) end.
  { rewrite S, app_length, Nat.add_sub, firstn_app, Nat.sub_diag, firstn_all. cbn [firstn]. now rewrite app_nil_r. }
  rewrite X in T. vm_compute in T. discriminate T.
Qed.
Print Assumptions C105_needed.

Section Example105.
  Local Existing Instance some_unicode.
  Definition second_cal : calendar := cal_push (cal_push cal_new (CTodo (run_calls [KTimestamp noon; KUid (lit "u"); KSummary evil_text] inner_new)))
    (COther (lit "X-Y", run_calls [KTimestamp noon; KUid (lit "v")] inner_new)).
  Example C105_example : cal_session first_cal /\ cal_session second_cal /\ clock_ok some_env /\ Forall (fun x => has_stamps (cc_inner x)) (c_comps second_cal)
    /\ match go first_cal, go second_cal, go (fst (cal_append first_cal second_cal)) with
       | Some c, Some d, Some f => f = fst (cal_append c d) /\ length (c_comps f) = 3 /\ f <> fst (cal_append first_cal second_cal)
       | _, _, _ => False
       end.
  Proof.
    split; [apply first_session|]. split; [|split; [apply some_env_ok|split]].
    - unfold second_cal. apply sc_push; [apply sc_push; [apply sc_new|now apply name_ok_spec|]|now apply name_ok_spec|]; cbn [cc_inner run_calls fold_left];
        repeat (apply si_call; [|cbn [call_safe]; try exact I; try (split; [now apply prop_name_okb_spec|now apply quiet_value])]); apply si_new.
    - cbn [second_cal cal_push c_comps app]. apply Forall_cons; [apply has_stampsb_spec; reflexivity|]. apply Forall_cons; [apply has_stampsb_spec; reflexivity|apply Forall_nil].
    - vm_compute. split; [reflexivity|]. split; [reflexivity|]. discriminate.
  Qed.
End Example105.
