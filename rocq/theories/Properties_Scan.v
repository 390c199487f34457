(** C71: exactly which texts are read as dates and times. *)
From Verif Require Import Str StrFacts ValueTypes Property Chrono DateTime Component Calendar Nom Parser ErrorText
  SpecDate SpecBuild SpecMore SpecScan MoreProofs ScanProofs Properties_Build.

(** C71. The date texts: a year, a month and a day that is in the calendar, with nothing after them; each number may
    follow white space, a month or a day of one digit must not be followed by a digit. *)
Theorem C71_dates : forall s d, parse_date s = Some d <-> date_text d s [].
Proof. exact parse_date_spec. Qed.
Print Assumptions C71_dates.
Theorem C71_local : forall s d, parse_dt s = Some d <-> dt_text d s [].
Proof. exact parse_dt_spec. Qed.
Print Assumptions C71_local.
Theorem C71_utc : forall s d, parse_dt_z s = Some d <-> exists a, s = a ++ lit "Z" /\ dt_text d a (lit "Z").
Proof. exact parse_dt_z_spec. Qed.
Print Assumptions C71_utc.
Theorem C71_from_str : forall s x, cal_dt_from_str s = Some x <->
  (exists d, x = Floating d /\ dt_text d s []) \/ (exists d a, x = Utc d /\ s = a ++ lit "Z" /\ dt_text d a (lit "Z")).
Proof. exact cal_dt_str_spec. Qed.
Print Assumptions C71_from_str.
(** The value of a property, and of a parsed one. *)
Theorem C71_property : forall {U : Unicode} p x, dpt_from_property p = Some x <-> dpt_value p x.
Proof. exact @dpt_value_spec. Qed.
Print Assumptions C71_property.
Theorem C71_parsed : forall p x, dpt_try_from p = Some x <-> pdpt_value p x.
Proof. exact pdpt_value_spec. Qed.
Print Assumptions C71_parsed.
(** What is said of a parsed property that is not read: a local time with an empty TZID, or no date and no time. *)
Theorem C71_errors : forall p,
  (forall x, dpt_try_from_res p = Ok x <-> pdpt_value p x)
  /\ (dpt_try_from_res p = Err (lit "Found empty TZID param.")
      <-> exists d q, dt_text d (pr_val p) [] /\ first_of pp_key (lit "TZID") (pr_params p) q /\ pp_val q = None)
  /\ (dpt_try_from_res p = Err (lit "Value does not look like a known DATE-TIME")
      <-> ~ (exists d, date_text d (pr_val p) []) /\ ~ (exists d, dt_text d (pr_val p) [])
          /\ ~ (exists d a, pr_val p = a ++ lit "Z" /\ dt_text d a (lit "Z")))
  /\ (forall m, dpt_try_from_res p = Err m ->
       m = lit "Found empty TZID param." \/ m = lit "Value does not look like a known DATE-TIME").
Proof.
  intros p. split; [intros x; rewrite <- C71_parsed|].
  { unfold dpt_try_from_res, dpt_try_from. destruct (parse_dt_z _); [split; intros H; now injection H as <-|].
    destruct (parse_date _); [split; intros H; now injection H as <-|]. destruct (parse_dt _); [|easy].
    destruct (find _ _) as [q|]; [destruct (pp_val q)|]; try easy; split; intros H; now injection H as <-. }
  destruct (parse_exclusive (pr_val p)) as [X1 X2]. split; [|split].
  - split.
    + unfold dpt_try_from_res. destruct (parse_dt_z _); [easy|]. destruct (parse_date _); [easy|].
      destruct (parse_dt _) as [d|] eqn:T; [|easy]. destruct (find _ _) as [q|] eqn:F; [|easy]. destruct (pp_val q) eqn:V; [easy|].
      intros _. exists d, q. split; [now apply parse_dt_spec|]. split; [now apply find_first_of|easy].
    + intros (d & q & T & F & V). apply parse_dt_spec in T. apply find_first_of in F. unfold dpt_try_from_res.
      destruct (X2 d T) as [-> ->]. now rewrite T, F, V.
  - split.
    + unfold dpt_try_from_res. destruct (parse_dt_z _) eqn:Z; [easy|]. destruct (parse_date _) eqn:D; [easy|].
      destruct (parse_dt _) as [d|] eqn:T; [destruct (find _ _) as [q|]; [destruct (pp_val q)|]; discriminate|]. intros _. repeat split.
      * intros [d H]. apply parse_date_spec in H. congruence.
      * intros [d H]. apply parse_dt_spec in H. congruence.
      * intros (d & H). apply parse_dt_z_spec in H. congruence.
    + intros (H1 & H2 & H3). unfold dpt_try_from_res. destruct (parse_dt_z _) as [d|] eqn:Z.
      { exfalso. apply H3. exists d. now apply parse_dt_z_spec. }
      destruct (parse_date _) as [d|] eqn:D; [exfalso; apply H1; exists d; now apply parse_date_spec|].
      destruct (parse_dt _) as [d|] eqn:T; [exfalso; apply H2; exists d; now apply parse_dt_spec|easy].
  - intros m. unfold dpt_try_from_res. destruct (parse_dt_z _); [easy|]. destruct (parse_date _); [easy|].
    destruct (parse_dt _); [|intros H; injection H as <-; now right]. destruct (find _ _) as [q|]; [destruct (pp_val q)|]; try easy.
    intros H. injection H as <-. now left.
Qed.
Print Assumptions C71_errors.

(** Not only the texts of RFC 5545: white space, short numbers, signs; but not a short month before a digit. *)
Example C71_example :
  date_text (mk_date 2024 2 29) (lit "20240229") [] /\ date_text (mk_date 2024 2 9) (lit " 2024 2 9") []
  /\ date_text (mk_date (-5) 12 1) (lit "-5 121") [] /\ date_text (mk_date 7 1 1) (lit "7 011") []
  /\ ~ (exists d, date_text d (lit "20230229") []) /\ ~ (exists d, date_text d (lit "2024229") [])
  /\ (exists d, date_text d (lit "+262142 0101") []) /\ ~ (exists d, date_text d (lit "+262143 0101") [])
  /\ dt_text (mk_dt (mk_date 2024 2 29) (hms_time 23 59 60)) (lit "20240229T235960") []
  /\ ~ (exists d, dt_text d (lit "20240229T240000") []) /\ ~ (exists d, dt_text d (lit "20240229 T1 2 3") [])
  /\ dt_text (mk_dt (mk_date 2024 2 29) (hms_time 1 2 3)) (lit "20240229T1 2 3") (lit "Z").
Proof.
  assert (N : forall s, parse_date s = None -> ~ exists d, date_text d s []) by (intros s H [d D]; apply parse_date_spec in D; now rewrite H in D).
  assert (M : forall s, parse_dt s = None -> ~ exists d, dt_text d s []) by (intros s H [d D]; apply parse_dt_spec in D; now rewrite H in D).
  repeat match goal with |- _ /\ _ => split end;
    try (apply N; vm_compute; reflexivity); try (apply M; vm_compute; reflexivity);
    try (apply parse_date_spec; vm_compute; reflexivity); try (apply parse_dt_spec; vm_compute; reflexivity);
    try (eexists; apply parse_date_spec; vm_compute; reflexivity).
  assert (Q : exists a, lit "20240229T1 2 3Z" = a ++ lit "Z" /\ dt_text (mk_dt (mk_date 2024 2 29) (hms_time 1 2 3)) a (lit "Z"))
    by (apply parse_dt_z_spec; vm_compute; reflexivity).
  destruct Q as (a & E & T). change (lit "20240229T1 2 3Z") with (lit "20240229T1 2 3" ++ lit "Z") in E. apply app_inv_tail in E. now subst a.
Qed.
