(** C23-C27: dates and times. *)
From Verif Require Import Str Spec ValueTypes Property Chrono DateTime Component Alarm Calendar Nom Parser
  SpecBuild SpecDate StrFacts BuildProofs DateProofs SetterProofs.

(** ** C23: false as stated: a fraction of a second is dropped, and a year outside 0..9999 is not
    read back. *)
Theorem C23_timestamps_refuted : exists i d1 d2, real_dt d1 /\ real_dt d2
  /\ get_timestamp (timestamp i d1) <> Some d1 /\ get_timestamp (timestamp i d2) = None.
Proof.
  exists inner_new, (mk_dt (mk_date 2024 1 1) (mk_time 1 2 3 500000000)), (mk_dt (mk_date 10000 1 1) (mk_time 1 2 3 0)).
  assert (T : forall n, (n < 1000000000)%N -> real_time (mk_time 1 2 3 n)) by (intros n H; unfold real_time; cbn; lia).
  split; [|split; [|split]].
  - split; [now apply real_date_spec|now apply T].
  - split; [now apply real_date_spec|now apply T].
  - vm_compute. discriminate.
  - vm_compute. reflexivity.
Qed.
Print Assumptions C23_timestamps_refuted.
(** Exactly which instants survive, and what is left of those with a fraction. *)
Theorem C23_timestamps_partial : forall i d, real_dt d ->
  let ok := four_digits (date_of d) /\ whole_seconds (time_of d) in
  (get_timestamp (timestamp i d) = Some d <-> ok)
  /\ (get_created (created i d) = Some d <-> ok)
  /\ (get_last_modified (last_modified i d) = Some d <-> ok)
  /\ (get_completed (completed i d) = Some d <-> ok).
Proof. exact timestamps_round. Qed.
Print Assumptions C23_timestamps_partial.
Theorem C23_truncated_partial : forall i d, real_dt d -> four_digits (date_of d) ->
  get_timestamp (timestamp i d) = Some (trunc_dt d)
  /\ get_created (created i d) = Some (trunc_dt d)
  /\ get_last_modified (last_modified i d) = Some (trunc_dt d)
  /\ get_completed (completed i d) = Some (trunc_dt d).
Proof. exact timestamps_truncate. Qed.
Print Assumptions C23_truncated_partial.

Example C23_example :
  let d := mk_dt (mk_date 2016 12 31) (mk_time 23 59 59 1000000000) in
  real_dt d /\ four_digits (date_of d) /\ whole_seconds (time_of d)
  /\ get_created (created inner_new d) = Some d
  /\ property_value (created inner_new d) (lit "CREATED") = Some (lit "20161231T235960Z").
Proof.
  cbn zeta. split; [|split; [|split; [|split]]].
  - split; [now apply real_date_spec|]. unfold real_time. cbn. lia.
  - unfold four_digits. cbn. lia.
  - now right.
  - vm_compute. reflexivity.
  - vm_compute. reflexivity.
Qed.

(** ** C24: false as stated, for the same two reasons. *)
Theorem C24_dates_refuted : exists (U : Unicode) i x1 x2, real_dpt x1 /\ real_dpt x2
  /\ get_start (starts i x1) <> Some x1 /\ get_start (starts i x2) = None.
Proof.
  exists {| alnum_hi _ := false; lower_hi _ := false; tolower_hi c := [c] |}, inner_new,
    (DT (Floating (mk_dt (mk_date 2024 1 1) (mk_time 1 2 3 1)))), (DDate (mk_date (-1) 1 1)).
  split; [|split; [|split]].
  - split; [now apply real_date_spec|]. unfold real_time. cbn. lia.
  - now apply real_date_spec.
  - vm_compute. discriminate.
  - vm_compute. reflexivity.
Qed.
Print Assumptions C24_dates_refuted.
(** Exactly which values survive, in every form. *)
Theorem C24_dates_partial : forall (U : Unicode) i x, real_dpt x ->
  let ok := four_digits (dpt_date x) /\ dpt_whole x in
  (get_start (starts i x) = Some x <-> ok)
  /\ (get_end (ends i x) = Some x <-> ok)
  /\ (get_due (due i x) = Some x <-> ok).
Proof. exact dpt_setters_round. Qed.
Print Assumptions C24_dates_partial.
Theorem C24_truncated_partial : forall (U : Unicode) i x, real_dpt x -> four_digits (dpt_date x) ->
  get_start (starts i x) = Some (trunc_dpt x)
  /\ get_end (ends i x) = Some (trunc_dpt x)
  /\ get_due (due i x) = Some (trunc_dpt x).
Proof. exact dpt_setters_truncate. Qed.
Print Assumptions C24_truncated_partial.

Example C24_example : forall U : Unicode,
  let d := mk_dt (mk_date 2024 2 29) (mk_time 1 2 3 0) in
  let xs := [DDate (mk_date 2024 2 29); DT (Floating d); DT (Utc d); DT (WithTimezone d (lit "Europe/Berlin"))] in
  map (fun x => get_due (due inner_new x)) xs = map Some xs.
Proof.
  intros U d xs. assert (R : real_dt d).
  { split; [now apply real_date_spec|]. unfold real_time. cbn. lia. }
  apply map_ext_in. intros x I. apply C24_dates_partial.
  - cbn in I. destruct I as [<-|[<-|[<-|[<-|[]]]]]; try exact R. apply R.
  - cbn in I. unfold four_digits. destruct I as [<-|[<-|[<-|[<-|[]]]]]; cbn; (split; [lia|]); try easy; now left.
Qed.

(** ** C25 *)
Theorem C25_real_dates : forall (U : Unicode) p x, dpt_from_property p = Some x -> real_dpt x /\ dpt_whole x.
Proof. exact dpt_from_property_real. Qed.
Print Assumptions C25_real_dates.
Theorem C25_real_timestamps : forall i d,
  (get_timestamp i = Some d \/ get_created i = Some d \/ get_last_modified i = Some d \/ get_completed i = Some d) ->
  real_dt d /\ whole_seconds (time_of d).
Proof. exact timestamps_real. Qed.
Print Assumptions C25_real_timestamps.
(** Among the texts of eight digits, exactly those that denote a date are read, as that date. *)
Theorem C25_exact_dates : forall y m d x, (y < 10000)%N -> (m < 100)%N -> (d < 100)%N ->
  (parse_date (pad 4 y ++ pad 2 m ++ pad 2 d) = Some x
   <-> x = mk_date (Z.of_N y) m d /\ real_date x).
Proof. exact parse_date_canonical. Qed.
Print Assumptions C25_exact_dates.
(** And the same for date-times. *)
Theorem C25_exact_times : forall y m d h mi s x, (y < 10000)%N -> (m < 100)%N -> (d < 100)%N ->
  (h < 100)%N -> (mi < 100)%N -> (s < 100)%N ->
  let text := pad 4 y ++ pad 2 m ++ pad 2 d ++ lit "T" ++ pad 2 h ++ pad 2 mi ++ pad 2 s in
  let good := x = mk_dt (mk_date (Z.of_N y) m d) (hms_time h mi s)
      /\ real_date (date_of x) /\ (h < 24 /\ mi < 60 /\ s <= 60)%N in
  (parse_dt text = Some x <-> good) /\ (parse_dt_z (text ++ lit "Z") = Some x <-> good)
  /\ parse_dt_z text = None /\ parse_dt (text ++ lit "Z") = None.
Proof. exact parse_dt_canonical. Qed.
Print Assumptions C25_exact_times.

Example C25_example :
  parse_date (lit "20240229") = Some (mk_date 2024 2 29) /\ parse_date (lit "20230229") = None
  /\ parse_date (lit "21000229") = None /\ parse_date (lit "20000229") = Some (mk_date 2000 2 29)
  /\ parse_date (lit "20241301") = None /\ parse_dt (lit "20240101T240000") = None
  /\ parse_dt (lit "20240101T235960") = Some (mk_dt (mk_date 2024 1 1) (mk_time 23 59 59 1000000000)).
Proof. now vm_compute. Qed.

(** ** C26 *)
Theorem C26_day : forall x k, real_dpt x -> four_digits (dpt_date x) ->
  parse_date (firstn 8 (p_val (dpt_to_property x k))) = Some (date_naive x)
  /\ firstn 8 (p_val (dpt_to_property x k))
     = pad 4 (Z.to_N (year (date_naive x))) ++ pad 2 (month (date_naive x)) ++ pad 2 (day (date_naive x)).
Proof. exact date_naive_day. Qed.
Print Assumptions C26_day.

(** The condition on the year is needed: other years have longer texts. *)
Example C26_wide_year : exists x k, real_dpt x
  /\ parse_date (firstn 8 (p_val (dpt_to_property x k))) <> Some (date_naive x).
Proof.
  exists (DDate (mk_date 12345 6 7)), (lit "DUE"). split; [now apply real_date_spec|]. vm_compute. discriminate.
Qed.
Example C26_example :
  let x := DT (WithTimezone (mk_dt (mk_date 2024 2 29) (mk_time 23 59 59 0)) (lit "Pacific/Kiritimati")) in
  firstn 8 (p_val (dpt_to_property x (lit "DUE"))) = lit "20240229" /\ date_naive x = mk_date 2024 2 29.
Proof. now vm_compute. Qed.

(** ** C27: false as stated: a year outside 0..9999 is not read back. *)
Theorem C27_all_day_refuted : exists (U : Unicode) i d, real_date d /\ get_start (all_day i d) = None.
Proof.
  exists {| alnum_hi _ := false; lower_hi _ := false; tolower_hi c := [c] |}, inner_new, (mk_date 10000 1 1).
  split; [now apply real_date_spec|]. vm_compute. reflexivity.
Qed.
Print Assumptions C27_all_day_refuted.
(** True for years written with four digits. *)
Theorem C27_all_day_partial : forall (U : Unicode) i d, real_date d -> four_digits d ->
  get_start (all_day i d) = Some (DDate d) /\ get_end (all_day i d) = Some (DDate d)
  /\ (forall k, k <> lit "DTSTART" -> k <> lit "DTEND" ->
        map_get k (i_props (all_day i d)) = map_get k (i_props i))
  /\ i_multi (all_day i d) = i_multi i /\ i_comps (all_day i d) = i_comps i.
Proof. exact all_day_spec. Qed.
Print Assumptions C27_all_day_partial.
(** Whatever the year, both hold the same text, marked VALUE=DATE. *)
Theorem C27_all_day_text : forall i d,
  map_get (lit "DTSTART") (i_props (all_day i d)) = Some (mk_property (lit "DTSTART") (fmt_date d) [(lit "VALUE", lit "DATE")])
  /\ map_get (lit "DTEND") (i_props (all_day i d)) = Some (mk_property (lit "DTEND") (fmt_date d) [(lit "VALUE", lit "DATE")]).
Proof. exact all_day_text. Qed.
Print Assumptions C27_all_day_text.

Example C27_example : real_date (mk_date 2024 2 29) /\ four_digits (mk_date 2024 2 29)
  /\ property_value (all_day (summary inner_new (lit "x")) (mk_date 2024 2 29)) (lit "DTEND") = Some (lit "20240229").
Proof. split; [now apply real_date_spec|]. split; [unfold four_digits; cbn; lia|reflexivity]. Qed.
