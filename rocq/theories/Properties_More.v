(** C54-C59: text fields, dates and properties of parsed components, value types, generated identifiers. *)
From Verif Require Import Str Spec Fold ValueTypes Property Chrono DateTime Component Alarm Calendar Nom Parser
  SpecTree SpecBuild SpecDoc SpecConv SpecMore StrFacts MoreProofs Properties_Build.

(** ** C54 *)
(** A text field reads what was set last, whatever else is set; each is stored under its own name. *)
Theorem C54_set_get : forall f i s,
  field_get f (field_set f i s) = Some s
  /\ map_get (lit (field_name f)) (i_props (field_set f i s)) = Some (mk_property (lit (field_name f)) s [])
  /\ (forall g, g <> f -> field_get g (field_set f i s) = field_get g i)
  /\ (forall p, p_key p <> lit (field_name f) -> field_get f (append_property i p) = field_get f i).
Proof.
  intros f i s. split; [apply field_set_get|]. split; [apply field_set_prop|]. split; [|intros p H; now apply append_other].
  intros g N. apply field_set_other. intros E. now apply N.
Qed.
Print Assumptions C54_set_get.
Theorem C54_unset : forall f, field_get f inner_new = None.
Proof. now intros []. Qed.
Print Assumptions C54_unset.
(** The location set with [venue] is the location, and the identifier of the venue is its parameter. *)
Theorem C54_venue : forall i l u, get_location (venue i l u) = Some l
  /\ exists p, map_get (lit "LOCATION") (i_props (venue i l u)) = Some p /\ p_params p = [(lit "VVENUE", u)].
Proof.
  intros i l u. unfold get_location, property_value, venue, append_property. cbn [i_props p_key append_parameter prop_new].
  rewrite map_get_bt_same. split; [easy|]. eexists. split; [reflexivity|]. reflexivity.
Qed.
Print Assumptions C54_venue.

Example C54_example :
  let i := url (description (street_address (summary inner_new (lit "a")) (lit "b")) (lit "c")) (lit "d") in
  (get_summary i, get_street_address i, get_description i, get_url i, get_region i)
  = (Some (lit "a"), Some (lit "b"), Some (lit "c"), Some (lit "d"), None).
Proof. now vm_compute. Qed.

(** ** C55 *)
Local Existing Instance some_unicode.
(** Refuted: a date without [VALUE=DATE] is read as a date from the parsed property, and not at all after conversion;
    with [TZID] and a [Z] there is a UTC time instead of nothing. *)
Theorem C55_refuted : exists q q', dpt_try_from q = Some (DDate (mk_date 2024 1 31)) /\ dpt_from_property (conv_prop q) = None
  /\ (exists d, dpt_try_from q' = Some (DT (Utc d))) /\ dpt_from_property (conv_prop q') = None.
Proof.
  exists (mk_pprop (lit "DTSTART") (lit "20240131") []).
  exists (mk_pprop (lit "DTSTART") (lit "20240131T010203Z") [mk_pparam (lit "TZID") (Some (lit "Europe/Berlin"))]).
  split; [now vm_compute|]. split; [now vm_compute|]. split; [eexists; now vm_compute|now vm_compute].
Qed.
Print Assumptions C55_refuted.
(** And a TZID parameter without a value gives an error in one case and an empty time zone in the other. *)
Theorem C55_tzid_refuted : exists q d, dpt_try_from q = None
  /\ dpt_from_property (conv_prop q) = Some (DT (WithTimezone d [])).
Proof.
  exists (mk_pprop (lit "DTSTART") (lit "20240131T010203") [mk_pparam (lit "TZID") None]). eexists. split; now vm_compute.
Qed.
Print Assumptions C55_tzid_refuted.
(** Whatever is read after conversion is also read from the parsed property. *)
Theorem C55_agree_partial : forall {U : Unicode} q x, at_most_one pp_key (lit "TZID") (pr_params q) ->
  Forall (fun a => pp_key a = lit "TZID" -> pp_val a <> None) (pr_params q) ->
  dpt_from_property (conv_prop q) = Some x -> dpt_try_from q = Some x.
Proof. exact @try_from_agrees. Qed.
Print Assumptions C55_agree_partial.
(** What is read from the parsed property depends on its text and its first TZID only. *)
Theorem C55_reads_partial : forall q, match dpt_try_from q with
  | Some (DDate d) => parse_date (pr_val q) = Some d
  | Some (DT (Utc d)) => parse_dt_z (pr_val q) = Some d
  | Some (DT (Floating d)) => parse_dt (pr_val q) = Some d /\ Forall (fun a => pp_key a <> lit "TZID") (pr_params q)
  | Some (DT (WithTimezone d tz)) => parse_dt (pr_val q) = Some d
      /\ exists a, first_of pp_key (lit "TZID") (pr_params q) a /\ pp_val a = Some tz
  | None => parse_date (pr_val q) = None /\ parse_dt_z (pr_val q) = None
      /\ (parse_dt (pr_val q) = None \/ exists a, first_of pp_key (lit "TZID") (pr_params q) a /\ pp_val a = None)
  end.
Proof. exact try_from_spec. Qed.
Print Assumptions C55_reads_partial.

Example C55_example :
  let q := mk_pprop (lit "DTSTART") (lit "20240131T010203") [mk_pparam (lit "X") None; mk_pparam (lit "TZID") (Some (lit "A/B"))] in
  at_most_one pp_key (lit "TZID") (pr_params q) /\ Forall (fun a => pp_key a = lit "TZID" -> pp_val a <> None) (pr_params q)
  /\ dpt_from_property (conv_prop q) = Some (DT (WithTimezone (mk_dt (mk_date 2024 1 31) (mk_time 1 2 3 0)) (lit "A/B"))).
Proof.
  split; [|split; [|now vm_compute]].
  - intros a x b y c E K. cbn [pr_params] in E. destruct a as [|a1 [|a2 a]].
    + injection E as <- _. vm_compute in K. discriminate K.
    + injection E as _ <- E. destruct b; discriminate E.
    + injection E as _ _ E. destruct a; discriminate E.
  - constructor; [vm_compute; discriminate|constructor; [discriminate|constructor]].
Qed.

(** ** C56 *)
(** Refuted: [Calendar::from(components)] has the default properties, not those of the calendar. *)
Theorem C56_refuted : exists cs, c_props (conv_roots cs) <> c_props (conv_cal (pcal_of_roots cs)).
Proof.
  exists [mk_pcomp (lit "VCALENDAR") [mk_pprop (lit "PRODID") (lit "mine") []] []].
  intros H. apply (f_equal (@length _)) in H. now vm_compute in H.
Qed.
Print Assumptions C56_refuted.
(** The components are those of the calendar, or all given components if the first one is not a calendar. *)
Theorem C56_components_partial : forall cs,
  c_comps (conv_roots cs) = c_comps (conv_cal (pcal_of_roots cs))
  /\ c_comps (conv_roots cs)
     = map conv_cc (match cs with
                    | r :: _ => if str_eq_dec (pc_name r) (lit "VCALENDAR") then pc_comps r else cs
                    | [] => [] end)
  /\ map (fun p => (p_key p, p_val p)) (c_props (conv_roots cs))
     = [(lit "VERSION", lit "2.0"); (lit "PRODID", lit "ICALENDAR-RS"); (lit "CALSCALE", lit "GREGORIAN")].
Proof.
  intros cs. split; [apply roots_components|]. split; [apply roots_spec|]. now rewrite (proj2 (roots_components cs)).
Qed.
Print Assumptions C56_components_partial.

Example C56_example : conv_roots [mk_pcomp (lit "VCALENDAR") [] [mk_pcomp (lit "VEVENT") [mk_pprop (lit "UID") (lit "u") []] []]]
  = cal_from_one (CEvent (uid inner_new (lit "u"))).
Proof. now vm_compute. Qed.

(** ** C57 *)
(** Refuted: of repeated properties, [find_prop] finds the first, the converted component keeps the last; and
    a multi-valued property is not found after conversion. *)
Theorem C57_refuted : exists c p, find_prop c (lit "SUMMARY") = Some p /\ pr_val p = lit "a"
  /\ property_value (conv_inner c) (lit "SUMMARY") = Some (lit "b")
  /\ find_prop c (lit "COMMENT") <> None /\ property_value (conv_inner c) (lit "COMMENT") = None.
Proof.
  exists (mk_pcomp (lit "VEVENT")
    [mk_pprop (lit "SUMMARY") (lit "a") []; mk_pprop (lit "COMMENT") (lit "c") []; mk_pprop (lit "SUMMARY") (lit "b") []] []).
  eexists. split; [vm_compute; reflexivity|]. split; [now vm_compute|]. split; [now vm_compute|].
  split; [vm_compute; discriminate|now vm_compute].
Qed.
Print Assumptions C57_refuted.
Theorem C57_first_partial : forall c n, match find_prop c n with
  | Some p => first_of pr_name n (pc_props c) p
  | None => Forall (fun p => pr_name p <> n) (pc_props c)
  end.
Proof. exact find_prop_spec. Qed.
Print Assumptions C57_first_partial.
Theorem C57_agree_partial : forall c n, at_most_one pr_name n (pc_props c) -> ~ multi_name n ->
  property_value (conv_inner c) n = option_map pr_val (find_prop c n).
Proof. exact find_prop_agrees. Qed.
Print Assumptions C57_agree_partial.

Example C57_example :
  let c := mk_pcomp (lit "VEVENT") [mk_pprop (lit "UID") (lit "u") []; mk_pprop (lit "SUMMARY") (lit "a") []] [] in
  at_most_one pr_name (lit "SUMMARY") (pc_props c) /\ ~ multi_name (lit "SUMMARY")
  /\ find_prop c (lit "SUMMARY") = Some (mk_pprop (lit "SUMMARY") (lit "a") []).
Proof.
  split; [|split; [|now vm_compute]].
  - intros a x b y d E K. cbn [pc_props] in E. destruct a as [|a1 [|a2 a]].
    + injection E as <- _. vm_compute in K. discriminate K.
    + injection E as _ <- E. destruct b; discriminate E.
    + injection E as _ _ E. destruct a; discriminate E.
  - intros (m & I & E). apply (f_equal (fun k => is_multi_name k)) in E. revert E.
    cbn [multi_names In] in I. repeat (destruct I as [<-|I]; [vm_compute; discriminate|]). destruct I.
Qed.

(** ** C58 *)
(** Exactly the properties of RFC 5545 have a default type, the right one - if the name is in capitals. *)
Theorem C58_types_partial : forall {U : Unicode} k t, by_name k = Some t <-> exists n, In (n, t) rfc_default_types /\ k = lit n.
Proof. exact @by_name_rfc. Qed.
Print Assumptions C58_types_partial.
(** Refuted: names are case-insensitive in RFC 5545; [summary] has no type, so its value is not unescaped. *)
Theorem C58_refuted : forall {U : Unicode}, exists k k' : str, same_name k k' /\ by_name k = Some Text /\ by_name k' = None
  /\ property_from_str (lit "summary:a\, b") = Ok (prop_new (lit "summary") (lit "a\, b")).
Proof.
  intros U. exists (lit "SUMMARY"), (lit "summary"). split; [reflexivity|]. split; [reflexivity|]. split; [reflexivity|]. reflexivity.
Qed.
Print Assumptions C58_refuted.

Example C58_example : by_name (lit "RECURRENCE-ID") = Some DateTime /\ by_name (lit "X-FOO") = None.
Proof. now vm_compute. Qed.

(** Why C10 asks for one VALUE parameter: of two, the parser takes the first, the writer the last. *)
Example C10_two_values_example : forall {U : Unicode}, exists q, determin_value_type (pr_name q) (pr_params q) = Some Text
  /\ prop_value_type (conv_prop q) = Some Uri.
Proof.
  intros U. exists (mk_pprop (lit "X") [] [mk_pparam (lit "VALUE") (Some (lit "TEXT")); mk_pparam (lit "VALUE") (Some (lit "URI"))]).
  now split.
Qed.

(** ** C59 *)
(** The UIDs generated while a calendar is written are all different, whatever is nested where, if the random
    numbers drawn are. *)
Theorem C59_fresh_uids : forall (U : Unicode) e c s, Forall (fun x => made (cc_inner x)) (c_comps c) -> clock_ok e ->
  fresh e (2 * cal_parts c) -> cal_write e c = Ret s -> exists ts us,
  text_of (Node (lit "VCALENDAR") (c_props c) ts) s
  /\ Forall2 (fun x t => arranged e (cc_kind x) (cc_inner x) t) (c_comps c) ts
  /\ new_uids_all (map (fun x => (cc_kind x, cc_inner x)) (c_comps c)) ts us /\ NoDup us.
Proof. intros U. exact fresh_uids. Qed.
Print Assumptions C59_fresh_uids.

Example C59_example :
  let c := mk_calendar [] [CEvent (run_calls some_calls inner_new); CTodo inner_new] in
  Forall (fun x => made (cc_inner x)) (c_comps c) /\ clock_ok some_env /\ fresh some_env (2 * cal_parts c)
  /\ cal_parts c = 3 /\ exists s, cal_write some_env c = Ret s.
Proof.
  cbn zeta. split; [|split; [apply some_env_ok|split; [|split; [reflexivity|]]]].
  - constructor; [apply some_calls_made|]. constructor; [apply made_new|constructor].
  - intros m n M N. change (2 * cal_parts _) with 6 in *. cbn [uuid_at some_env]. split; [|lia].
    change (2 ^ 128)%N with 340282366920938463463374607431768211456%N. lia.
  - eexists. vm_compute. reflexivity.
Qed.
