(** C26, C66: dates of every year. *)
From Coq Require Import ZifyBool ZifyNat ZifyN.
From Verif Require Import Str StrFacts Property Chrono DateTime Component SpecDate SpecText SpecWide WideProofs.

(** C26.  Whatever the year, the day stands at the front of the text, and no other day has that text. *)
Theorem C26_front : forall x k, real_dpt x -> exists a r, p_val (dpt_to_property x k) = a ++ r
  /\ (r = [] \/ exists t, r = lit "T" ++ t) /\ forall d, day_written d a <-> d = date_naive x.
Proof.
  intros x k R. destruct (dpt_front x k R) as (a & r & E & D & T). exists a, r. split; [easy|]. split; [easy|].
  intros d. split; [intros H; now apply (day_written_back _ _ _ H)|now intros ->].
Qed.
Print Assumptions C26_front.
(** It is the first eight characters, read as a date, exactly for the years 0 to 9999. *)
Theorem C26_exact : forall x k, real_dpt x ->
  (parse_date (firstn 8 (p_val (dpt_to_property x k))) = Some (date_naive x) <-> four_digits (dpt_date x)).
Proof. exact date_naive_exact. Qed.
Print Assumptions C26_exact.
Example C26_front_example :
  let x := DT (Utc (mk_dt (mk_date 12345 6 7) (mk_time 1 2 3 0))) in real_dpt x
  /\ p_val (dpt_to_property x (lit "DUE")) = lit "+123450607" ++ lit "T010203Z" /\ day_written (mk_date 12345 6 7) (lit "+123450607").
Proof.
  cbn zeta. assert (R : real_date (mk_date 12345 6 7)) by (now apply DateProofs.real_date_spec).
  split; [split; [exact R|unfold real_time; cbn; lia]|]. split; [now vm_compute|]. exact (day_fmt _ R).
Qed.

(** C66.  Dates and times of every year: the year has a sign and at least four digits if it is not in 0 to 9999. *)
Theorem C66_any_year : forall x k, real_dpt x ->
  p_key (dpt_to_property x k) = k /\ dpt_written x (p_val (dpt_to_property x k)) (p_params (dpt_to_property x k)).
Proof. exact dpt_fmt. Qed.
Print Assumptions C66_any_year.
Theorem C66_timestamps_any_year : forall i d, real_dt d ->
  exists t, moment_written d t /\ property_value (timestamp i d) (lit "DTSTAMP") = Some (t ++ lit "Z")
    /\ property_value (created i d) (lit "CREATED") = Some (t ++ lit "Z")
    /\ property_value (last_modified i d) (lit "LAST_MODIFIED") = Some (t ++ lit "Z")
    /\ property_value (completed i d) (lit "COMPLETED") = Some (t ++ lit "Z").
Proof.
  intros i d R. exists (format_naive_date_time d). split; [now apply moment_fmt|].
  unfold property_value, timestamp, created, last_modified, completed, add_property, append_property. cbn [i_props prop_new p_key].
  now rewrite !map_get_bt_same.
Qed.
Print Assumptions C66_timestamps_any_year.
(** Different days have different texts, although they may not be read back. *)
Theorem C66_day_told : forall d d' s, day_written d s -> day_written d' s -> d = d'.
Proof. exact day_written_back. Qed.
Print Assumptions C66_day_told.
Example C66_any_year_example :
  let d := mk_dt (mk_date (-44) 3 15) (mk_time 12 0 0 0) in real_dt d
  /\ property_value (timestamp inner_new d) (lit "DTSTAMP") = Some (lit "-00440315T120000" ++ lit "Z")
  /\ moment_written d (lit "-00440315T120000").
Proof.
  cbn zeta. assert (R : real_dt (mk_dt (mk_date (-44) 3 15) (mk_time 12 0 0 0)))
    by (split; [now apply DateProofs.real_date_spec|unfold real_time; cbn; lia]).
  split; [exact R|]. split; [now vm_compute|]. exact (moment_fmt _ R).
Qed.
