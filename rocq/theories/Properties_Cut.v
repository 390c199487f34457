(** Texts that were cut off: C81. *)
From Verif Require Import Str StrFacts Fold Spec ValueTypes Property Chrono DateTime Component Calendar Nom Parser SpecBuild SpecTree SpecDoc SpecItems
  SpecGrammar SpecRound SpecExact SpecCut BuildProofs ParserProofs TruncProofs CutCalProofs RoundProofs LfProofs RefoldProofs ReadProofs ExactProofs DocProofs UnfoldProofs RoundChecks Properties_Build Properties_Items Properties_Round Properties_Exact.

(** C81. If more than the last line break of the text of a calendar is missing, then it is rejected or read as a calendar
    without properties and components; without the last line break it is read the same, and without the last line feed
    only it is read as an empty calendar. *)
Theorem C81_calendar_partial : forall {U : Unicode} e c s s0 z, clock_ok e -> cal_fine c -> cal_all breakless c -> cal_write e c = Ret s -> s = s0 ++ z ->
  (2 < length z -> calendar_from_str s0 = Ok cal_empty \/ exists e, calendar_from_str s0 = Err e)
  /\ (z = [CR; LF] -> calendar_from_str s0 = calendar_from_str s)
  /\ (z = [LF] -> calendar_from_str s0 = Ok cal_empty).
Proof. exact @cal_cut. Qed.
Print Assumptions C81_calendar_partial.
(** The text of a component is rejected if more than the last line break is missing, and is read the same otherwise. *)
Theorem C81_component_partial : forall {U : Unicode} e x n n' s s0 z, clock_ok e -> comp_fine x -> inner_all breakless (cc_inner x) ->
  cc_write e x n = Ret (s, n') -> s = s0 ++ z ->
  (2 < length z -> exists e, cc_from_str s0 = Err e) /\ (length z <= 2 -> cc_from_str s0 = cc_from_str s).
Proof. exact @comp_cut. Qed.
Print Assumptions C81_component_partial.
(** The same for all documents of upper-case keywords and lines ended by CR LF, whoever wrote them. *)
Theorem C81_document_partial : forall {U : Unicode} t u z, wtree_ok CrLf t -> single t -> strict_text t = u ++ z ->
  (2 < length z -> (read_calendar u = Ok (mk_pcal [] []) \/ exists e, read_calendar u = Err e) /\ exists e, read_component u = Err e)
  /\ (z = [CR; LF] -> read_calendar u = read_calendar (u ++ z) /\ read_component u = read_component (u ++ z))
  /\ (z = [LF] -> read_calendar u = Ok (mk_pcal [] []) /\ read_component u = read_component (u ++ z)).
Proof. exact @doc_cut. Qed.
Print Assumptions C81_document_partial.
(** A document that ends inside of a sub-component (after the BEGIN of its first line) is rejected. *)
Theorem C81_inside : forall {U : Unicode} n its t u z, wtree_ok CrLf (W n (its ++ [inr t])) -> single t -> strict_text t = u ++ z ->
  5 <= length u -> 2 < length z ->
  let s := lit "BEGIN:" ++ n ++ [CR; LF] ++ concat (map strict_item its) ++ u in
  (exists e, read_calendar s = Err e) /\ (exists e, read_component s = Err e).
Proof. exact @inside_cut. Qed.
Print Assumptions C81_inside.
(** Refuted: a calendar with an event, its text cut off after the first line, is read as an empty calendar. *)
Theorem C81_refuted : forall {U : Unicode}, exists e c s s0 z, clock_ok e /\ cal_fine c /\ cal_all breakless c /\ cal_write e c = Ret s
  /\ s = s0 ++ z /\ 2 < length z /\ c_props c <> [] /\ c_comps c <> [] /\ calendar_from_str s0 = Ok cal_empty.
Proof.
  intros U. exists some_env, (mk_calendar [prop_new (lit "VERSION") (lit "2.0")] [CEvent inner_new]). eexists. exists (lit "BEGIN:VCALENDAR" ++ [CR; LF]). eexists.
  split; [apply some_env_ok|]. split; [|split].
  - split; [constructor; [|constructor]|constructor; [|constructor]].
    + split; [split; [now apply prop_name_okb_spec|split; constructor]|]. intros _. cbn [prop_new p_val].
      assert (L : ~ In LF (lit "2.0")) by (intros I; vm_compute in I; intuition discriminate).
      split; [|now apply mark_free_no_lf]. intros (a & b & E). apply L. rewrite E. apply in_or_app. right. right. now left.
    + split; [now apply name_ok_spec|]. split; [apply made_new|]. constructor; [easy|easy|constructor].
  - split; [constructor; [|constructor]|constructor; [|constructor]].
    + apply breaklessb_spec. now vm_compute.
    + constructor; [easy|easy|constructor].
  - split; [vm_compute; reflexivity|]. split; [cbn [lit app]; reflexivity|]. split; [cbn; lia|]. repeat split; discriminate.
Qed.
Print Assumptions C81_refuted.
(** Refuted too where a value other than TEXT has a line feed: what stands after it is read as the end, and the text is read
    as a calendar with fewer properties and components. *)
Theorem C81_data_refuted : forall {U : Unicode}, exists e c s s0 z d p, clock_ok e /\ cal_fine c /\ cal_write e c = Ret s /\ s = s0 ++ z /\ 2 < length z
  /\ calendar_from_str s0 = Ok d /\ c_props d = [p] /\ p_key p = lit "DTSTART" /\ p_val p = lit "x".
Proof.
  intros U. exists some_env, (mk_calendar [prop_new (lit "DTSTART") (lit "x" ++ LF :: lit "END:VCALENDAR")] []). eexists.
  exists (lit "BEGIN:VCALENDAR" ++ [CR; LF] ++ lit "DTSTART:x" ++ LF :: lit "END:VCALENDAR"). do 3 eexists.
  split; [apply some_env_ok|]. split.
  { split; [|constructor]. constructor; [|constructor]. split; [split; [now apply prop_name_okb_spec|split; constructor]|]. intros _. split.
    - intros (a & b & E). assert (I : In CR (p_val (prop_new (lit "DTSTART") (lit "x" ++ LF :: lit "END:VCALENDAR")))) by (rewrite E; apply in_app_iff; right; now left).
      vm_compute in I. intuition discriminate.
    - cbn [prop_new p_val]. intros a b E F. apply fold_mark_mark in F as (m & r & (c & B & M) & ->).
      assert (I : exists x y, lit "x" ++ LF :: lit "END:VCALENDAR" = x ++ [LF; c] ++ y) by (destruct M as [-> | ->]; [exists (a ++ [CR]), r|exists a, r]; rewrite E, <- ?app_assoc; reflexivity).
      destruct I as (x & y & I). destruct x as [|x1 [|x2 x]]; [discriminate I|injection I as _ <- _; destruct B as [B|B]; discriminate B|].
      injection I as _ _ I. assert (L : In LF (lit "END:VCALENDAR")) by (cbn [lit] in I |- *; rewrite I; apply in_app_iff; right; now left).
      vm_compute in L. intuition discriminate. }
  split; [vm_compute; reflexivity|]. split; [cbn [lit app]; reflexivity|]. split; [cbn; lia|]. split; [vm_compute; reflexivity|].
  split; [reflexivity|]. now vm_compute.
Qed.
Print Assumptions C81_data_refuted.

Section Examples.
Local Existing Instance some_unicode.
Definition cut_doc : wtree := W (lit "VCALENDAR") [inl (LValue (lit "VERSION") [] (lit "2.0"));
  inr (W (lit "VEVENT") [inl (LValue (lit "SUMMARY") [] (lit "a")); inr (W (lit "VALARM") [inl (LBare (lit "X-END"))])]); inl (LValue (lit "X-A") [] (lit "b"))].
(** A document with three levels; and a calendar, cut off after two lines and inside of its event. *)
Example C81_example :
  wtree_ok CrLf cut_doc /\ single cut_doc /\ (exists c, read_calendar (strict_text cut_doc) = Ok c /\ length (pcal_comps c) = 1)
  /\ (exists s, cal_write some_env wild_cal = Ret s /\ cal_fine wild_cal /\ cal_all breakless wild_cal
      /\ length s > 100 /\ calendar_from_str (firstn 30 s) = Ok cal_empty /\ exists e, calendar_from_str (firstn 60 s) = Err e).
Proof.
  split; [apply wtree_okb_spec; now vm_compute|]. split; [|split; [eexists; split; [vm_compute; reflexivity|reflexivity]|]].
  - repeat (constructor; try (intros I; vm_compute in I; intuition discriminate)).
  - eexists. split; [vm_compute; reflexivity|]. split; [apply wild_fine|].
    split; [apply (cal_all_check breaklessb); [apply breaklessb_spec|now vm_compute|now vm_compute]|].
    split; [vm_compute; repeat constructor|]. split; [vm_compute; reflexivity|]. eexists. vm_compute. reflexivity.
Qed.
End Examples.
