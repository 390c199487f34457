(** Exact versions of C04, C27, C39, C41, C48 and C81. *)
From Verif Require Import Str StrFacts Fold Spec ValueTypes Property Chrono DateTime Component Alarm Calendar Nom Parser SpecBuild SpecDate SpecCal SpecTree SpecDoc SpecItems
  SpecGrammar SpecConv SpecFold SpecRound SpecExact SpecCut SpecEdge DateProofs SetterProofs CalProofs FoldProofs CutProofs SharpProofs SizeProofs ConvProofs KeptProofs BuildProofs ParserProofs DocProofs
  RoundChecks EdgeProofs EndProofs Properties_Build Properties_Items Properties_Exact Properties_Access Properties_Cut.
From Coq Require Import ZifyBool ZifyNat ZifyN.

(** ** C04 *)
(** The pieces of a folded line; only the first can be empty, and it is so exactly if the line is too long and its first cut falls
    before its first character. *)
Theorem C04_exact : forall l s, fold_line l = Ret s ->
  exists ps last, cuts l [] 75 ps last /\ s = join_fold ps last /\ l = concat ps ++ last
    /\ (Forall (fun p => p <> []) ps <-> ~ (75 < octets l /\ cut_place l 75 0)).
Proof.
  intros l s H. apply fold_exact in H as (ps & last & C & ->). exists ps, last. split; [easy|]. split; [easy|]. split; [apply (cuts_concat _ _ _ _ _ C)|].
  inversion C as [a n r E L E1 E2 E3|a n p r ps' la E L P C' E1 E2 E3]; subst ps; cbn [app] in *.
  - split; [intros _ [H _]|constructor]. congruence || (subst; lia).
  - pose proof (cuts_full _ _ _ _ _ C' eq_refl) as F. rewrite <- E in L. split.
    + intros H [_ Q]. inversion H as [|? ? Hp _]. apply cut_place_spec in P, Q. rewrite P in Q. injection Q as Q. apply Hp.
      rewrite octets_blen in Q. destruct p as [|c p]; [easy|]. cbn [blen] in Q. pose proof (utf8_len_bounds c). lia.
    + intros H. constructor; [|exact F]. intros ->. apply H. split; [easy|]. exact P.
Qed.
Print Assumptions C04_exact.
(** A letter and a hundred non-breaking spaces: the first cut goes back to the start; with another letter in front it does not. *)
Example C04_exact_example : let l := 97%N :: repeat 160%N 100 in
  cut_place l 75 0 /\ ~ cut_place (97%N :: l) 75 0 /\ exists s, fold_line (97%N :: l) = Ret s.
Proof.
  cbn zeta. split; [apply cut_place_spec; now vm_compute|]. split; [|eexists; vm_compute; reflexivity].
  intros H. apply cut_place_spec in H. vm_compute in H. discriminate H.
Qed.

(** ** C27 *)
(** An all-day event has its day as start and as end exactly if its year has four digits. *)
Theorem C27_exact : forall (U : Unicode) i d, real_date d ->
  (get_start (all_day i d) = Some (DDate d) <-> four_digits d) /\ (get_end (all_day i d) = Some (DDate d) <-> four_digits d)
  /\ (~ four_digits d -> get_start (all_day i d) = None /\ get_end (all_day i d) = None).
Proof.
  intros U i d R.
  assert (W : ~ four_digits d -> get_start (all_day i d) = None /\ get_end (all_day i d) = None).
  { intros F. unfold all_day, get_start, get_end.
    set (a := naive_date_to_property d (lit "DTSTART")). set (b := naive_date_to_property d (lit "DTEND")). split.
    - rewrite get_append_other by discriminate. change (lit "DTSTART") with (p_key a). rewrite get_append_same. apply (dpt_read_wide U (DDate d) (lit "DTSTART")); easy.
    - change (lit "DTEND") with (p_key b). rewrite get_append_same. apply (dpt_read_wide U (DDate d) (lit "DTEND")); easy. }
  split; [|split; [|exact W]]; (split; [|intros F; now apply all_day_spec]); intros H; destruct (four_digits_dec d) as [F|F]; try easy; destruct (W F) as [W1 W2]; congruence.
Qed.
Print Assumptions C27_exact.
Example C27_exact_example : real_date (mk_date 9999 12 31) /\ four_digits (mk_date 9999 12 31) /\ real_date (mk_date 10000 1 1) /\ ~ four_digits (mk_date 10000 1 1)
  /\ property_value (all_day inner_new (mk_date 10000 1 1)) (lit "DTSTART") = Some (lit "+100000101").
Proof. split; [now apply real_date_spec|]. split; [unfold four_digits; cbn; lia|]. split; [now apply real_date_spec|]. split; [unfold four_digits; cbn; lia|]. now vm_compute. Qed.

(** ** C39 *)
(** A component of a document is closed by a line with END and the name [m] exactly if [m] starts with the name [n] of the component and does
    not go on with END or BEGIN; what [m] has more is then a property of the document, without a value. Everything else is read as if [m] were
    [n]. All other documents are rejected. *)
Theorem C39_exact : forall {U : Unicode} k its1 n its m its2, wtree_ok CrLf (W k (its1 ++ inr (W n its) :: its2)) -> name_ok m ->
  let s := mislabelled k its1 n its m its2 in
  (forall c, read_component s = Ok c <-> exists x, m = n ++ x /\ ~ bold_start x
     /\ c = mk_pcomp k (pc_props (wtree_read (W k its1)) ++ named_only x ++ pc_props (wtree_read (W k its2)))
                       (pc_comps (wtree_read (W k its1)) ++ wtree_read (W n its) :: pc_comps (wtree_read (W k its2))))
  /\ ((exists e, read_component s = Err e) <-> ~ exists x, m = n ++ x /\ ~ bold_start x).
Proof. exact @mislabelled_exact. Qed.
Print Assumptions C39_exact.
Section C39.
Local Existing Instance some_unicode.
(** VEVENTS closes VEVENT, VEVEN and VEVENTEND do not. *)
Example C39_exact_example :
  let its := [inl (LValue (lit "SUMMARY") [] (lit "a"))] in let k := lit "VCALENDAR" in let n := lit "VEVENT" in
  wtree_ok CrLf (W k (its ++ inr (W n its) :: its))
  /\ (exists c, read_component (mislabelled k its n its (lit "VEVENTS") its) = Ok c /\ map Parser.pr_name (pc_props c) = [lit "SUMMARY"; lit "S"; lit "SUMMARY"])
  /\ (exists e, read_component (mislabelled k its n its (lit "VEVEN") its) = Err e)
  /\ exists e, read_component (mislabelled k its n its (lit "VEVENTEND") its) = Err e.
Proof.
  cbn zeta. split; [apply wtree_okb_spec; now vm_compute|]. split; [eexists; split; vm_compute; reflexivity|]. split; eexists; vm_compute; reflexivity.
Qed.
End C39.

(** ** C41 *)
(** How many properties of a parsed component there are afterwards: as many as before exactly if only names of the list occur more than once. *)
Theorem C41_exact : forall n ps cs, let i := conv_inner (mk_pcomp n ps cs) in
  let kept := length (i_props i) + list_sum (map (fun e => length (snd e)) (i_multi i)) in
  kept <= length ps
  /\ (kept = length ps <-> forall a q b r c, ps = a ++ q :: b ++ r :: c -> Parser.pr_name q = Parser.pr_name r -> multi_name (Parser.pr_name q)).
Proof. exact kept_count. Qed.
Print Assumptions C41_exact.
Example C41_exact_example :
  let a n v := mk_pprop (lit n) (lit v) [] in
  (forall x q b r c, [a "ATTENDEE" "x"; a "SUMMARY" "s"; a "ATTENDEE" "x"]%string = x ++ q :: b ++ r :: c -> Parser.pr_name q = Parser.pr_name r -> multi_name (Parser.pr_name q))
  /\ length (i_props (conv_inner (mk_pcomp (lit "VEVENT") [a "TZNAME" "x"; a "TZNAME" "y"]%string []))) = 1.
Proof.
  cbn zeta. split; [|reflexivity]. intros x q b r c E Q.
  assert (A : multi_name (lit "ATTENDEE")) by (exists "ATTENDEE"%string; split; [cbn; tauto|reflexivity]).
  assert (D : lit "SUMMARY" <> lit "ATTENDEE") by (vm_compute; discriminate).
  destruct x as [|x1 [|x2 [|x3 x]]]; cbn [app] in E.
  - injection E as <- _. exact A.
  - injection E as _ <- E. destruct b as [|b1 b]; [injection E as <- _; cbn [Parser.pr_name] in Q; now elim D|]. injection E as _ E. destruct b; discriminate E.
  - injection E as _ _ <- E. destruct b; discriminate E.
  - injection E as _ _ _ E. destruct x; discriminate E.
Qed.

(** ** C48 *)
(** A trigger of at most [u32::MAX] seconds, or at a real date and time, is read back unchanged exactly if it is a duration that is not negative,
    in whole milliseconds, or a date and time without a time zone or in UTC, with a year of four digits and whole seconds. *)
Theorem C48_exact : forall (I : Iso8601) t,
  match t with TDuration d _ => (d < 4294967296 * 1000000000)%Z | TDateTime c => real_dt (dt_of c) end ->
  (trigger_from_property (trigger_to_property t) = Some t <->
   match t with
   | TDuration d _ => (0 <= d)%Z /\ (d mod 1000000 = 0)%Z
   | TDateTime (Floating d) | TDateTime (Utc d) => four_digits (date_of d) /\ whole_seconds (time_of d)
   | TDateTime (WithTimezone _ _) => False
   end).
Proof.
  intros I [d r|c] H.
  - rewrite (trigger_read (TDuration d r) H). cbn [read_trigger]. destruct (d <? 0)%Z eqn:E.
    + split; [easy|]. intros [Q _]. lia.
    + split.
      * intros Q. injection Q as Q. pose proof (Z.mod_pos_bound d 1000000). lia.
      * intros [_ ->]. now rewrite Z.sub_0_r.
  - destruct (four_digits_dec (date_of (dt_of c))) as [F|F].
    + rewrite (trigger_read (TDateTime c) (conj H F)). destruct c as [d|d|d z]; cbn [read_trigger dt_of] in *; [| |split; [discriminate|easy]];
        (rewrite <- (trunc_dt_whole d H); split; [intros Q; injection Q as Q; easy|intros [_ ->]; easy]).
    + assert (W : trigger_from_property (trigger_to_property (TDateTime c)) = None).
      { destruct c as [d|d|d z]; cbn [dt_of] in F; unfold trigger_from_property, trigger_to_property;
          cbn [cal_dt_to_property append_parameter prop_new p_key p_val p_params fst snd hm_insert map_get]; rewrite !str_eqb_refl;
          unfold cal_dt_from_str, parse_utc_date_time, parse_naive_date_time.
        - now rewrite parse_dt_z_naive_wide, parse_dt_wide.
        - now rewrite parse_dt_z_wide, parse_dt_utc_wide.
        - change (map_get (lit "VALUE") (if str_eqb (lit "VALUE") (lit "TZID") then [(lit "TZID", lit "DATE-TIME")] else [(lit "TZID", z); (lit "VALUE", lit "DATE-TIME")]))
            with (Some (lit "DATE-TIME")). cbv iota. rewrite str_eqb_refl. now rewrite parse_dt_z_naive_wide, parse_dt_wide. }
      rewrite W. split; [easy|]. destruct c as [d|d|d z]; cbn [dt_of] in F; intuition easy.
Qed.
Print Assumptions C48_exact.
Example C48_exact_example : real_dt (mk_dt (mk_date 2024 2 29) (mk_time 23 59 59 0)) /\ four_digits (mk_date 2024 2 29) /\ whole_seconds (mk_time 23 59 59 0)
  /\ (1500000000 mod 1000000 = 0)%Z.
Proof. split; [now apply real_dtb_ok|]. split; [unfold four_digits; cbn; lia|]. split; [now left|reflexivity]. Qed.

(** ** C81 *)
(** A document cut off before its last line break is read as an empty calendar, or rejected; and it is rejected exactly if it ends inside of a
    sub-component (after the word BEGIN), or in its own last line (after the word END). *)
Theorem C81_exact : forall {U : Unicode} n its u z, wtree_ok CrLf (W n its) -> single (W n its) -> strict_text (W n its) = u ++ z -> 2 < length z ->
  (read_calendar u = Ok (mk_pcal [] []) <-> ~ doc_within n its u) /\ ((exists e, read_calendar u = Err e) <-> doc_within n its u).
Proof. exact @doc_cut_exact. Qed.
Print Assumptions C81_exact.
(** The same for the text of a calendar: [head] is its first line and its properties, [ss] its components. *)
Theorem C81_calendar_exact : forall {U : Unicode} e c s, clock_ok e -> cal_fine c -> cal_all breakless c -> cal_write e c = Ret s ->
  exists ts ss, Forall2 (fun p t => prop_write p = Ret t) (c_props c) ts /\ Forall2 (fun x t => exists n n', cc_write e x n = Ret (t, n')) (c_comps c) ss
    /\ let head := lit "BEGIN:VCALENDAR" ++ [CR; LF] ++ concat ts in
       s = head ++ concat ss ++ lit "END:VCALENDAR" ++ [CR; LF]
       /\ forall s0 z, s = s0 ++ z -> 2 < length z ->
          (calendar_from_str s0 = Ok cal_empty <-> ~ cal_within head ss s0) /\ ((exists er, calendar_from_str s0 = Err er) <-> cal_within head ss s0).
Proof. exact @cal_cut_exact. Qed.
Print Assumptions C81_calendar_exact.
Section C81.
Local Existing Instance some_unicode.
(** The document of [C81_example], cut off in its event, after its event, and in its last line. *)
Example C81_exact_example : wtree_ok CrLf cut_doc /\ single cut_doc
  /\ (exists e, read_calendar (firstn 40 (strict_text cut_doc)) = Err e) /\ length (strict_text cut_doc) = 122
  /\ read_calendar (firstn 106 (strict_text cut_doc)) = Ok (mk_pcal [] []) /\ (exists e, read_calendar (firstn 111 (strict_text cut_doc)) = Err e)
  /\ exists s, cal_write some_env wild_cal = Ret s /\ calendar_from_str (firstn 30 s) = Ok cal_empty /\ exists e, calendar_from_str (firstn 60 s) = Err e.
Proof.
  split; [apply C81_example|]. split; [apply C81_example|]. split; [eexists; vm_compute; reflexivity|]. split; [vm_compute; reflexivity|].
  split; [vm_compute; reflexivity|]. split; [eexists; vm_compute; reflexivity|]. eexists. split; [vm_compute; reflexivity|]. split; [vm_compute; reflexivity|]. eexists. vm_compute. reflexivity.
Qed.
End C81.
