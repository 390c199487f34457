(** Typed setters and getters. *)
From Verif Require Import Str StrFacts ValueTypes Property Chrono DateTime Component SpecDate SpecBuild
  BuildProofs DateProofs ValueProofs.
From Coq Require Import ZifyBool ZifyNat ZifyN.

Lemma get_append_same : forall i p, map_get (p_key p) (i_props (append_property i p)) = Some p.
Proof. intros. apply map_get_bt_same. Qed.
Lemma get_append_other : forall i p k, k <> p_key p ->
  map_get k (i_props (append_property i p)) = map_get k (i_props i).
Proof. intros. now apply map_get_bt_other. Qed.
Lemma value_append_same : forall i p, property_value (append_property i p) (p_key p) = Some (p_val p).
Proof. intros. unfold property_value. now rewrite get_append_same. Qed.
Lemma value_add_same : forall i k v, property_value (add_property i k v) k = Some v.
Proof. intros. apply (value_append_same i (prop_new k v)). Qed.

(** ** Integers *)

Lemma sequence_round : forall i n, (n <= U32_MAX)%N -> get_sequence (sequence i n) = Some n.
Proof. intros i n H. unfold get_sequence, sequence. rewrite value_add_same. now apply parse_uint_dec. Qed.
Lemma percent_round : forall i n, (n <= U8_MAX)%N -> get_percent_complete (percent_complete i n) = Some n.
Proof.
  intros i n H. unfold get_percent_complete, percent_complete. rewrite value_add_same.
  now apply parse_uint_dec.
Qed.
Lemma get_sequence_spec : forall i n, get_sequence i = Some n <->
  exists s, property_value i (lit "SEQUENCE") = Some s /\ (n <= U32_MAX)%N /\ numeral s n.
Proof.
  intros i n. unfold get_sequence. destruct (property_value i (lit "SEQUENCE")) as [s|].
  - rewrite parse_uint_spec. split; [eauto|]. intros (s' & E & H). now injection E as ->.
  - split; [easy|]. intros (s & E & _). discriminate.
Qed.
Lemma get_percent_spec : forall i n, get_percent_complete i = Some n <->
  exists s, property_value i (lit "PERCENT-COMPLETE") = Some s /\ (n <= U8_MAX)%N /\ numeral s n.
Proof.
  intros i n. unfold get_percent_complete. destruct (property_value i (lit "PERCENT-COMPLETE")) as [s|].
  - rewrite parse_uint_spec. split; [eauto|]. intros (s' & E & H). now injection E as ->.
  - split; [easy|]. intros (s & E & _). discriminate.
Qed.
Lemma get_priority_spec : forall i n, get_priority i = Some n <->
  exists s, property_value i (lit "PRIORITY") = Some s /\ (n <= 10)%N /\ numeral s n.
Proof.
  intros i n. unfold get_priority. destruct (property_value i (lit "PRIORITY")) as [s|].
  - destruct (parse_uint U32_MAX s) as [m|] eqn:E.
    + apply parse_uint_spec in E as [L E].
      assert (Uq : forall a b x, decimal x a -> decimal x b -> a = b).
      { intros a b x Ha Hb. apply decimal_spec in Ha, Hb. destruct Ha as (_ & _ & <-), Hb as (_ & _ & <-). easy. }
      assert (Np : forall r x, ~ decimal (PLUS :: r) x).
      { intros r x H. apply decimal_spec in H as (_ & H & _). discriminate. }
      split.
      * destruct (m <=? 10)%N eqn:F; [|easy]. intros H. injection H as <-. exists s. repeat split; [lia|easy].
      * intros (s' & E' & L' & H). injection E' as <-.
        assert (n = m).
        { destruct H as [H|(r & -> & H)], E as [E|(r' & Er & E)].
          - eauto.
          - subst s. now apply Np in H.
          - now apply Np in E.
          - injection Er as <-. eauto. }
        subst m. now replace (n <=? 10)%N with true by lia.
    + split; [easy|]. intros (s' & E' & L' & H). injection E' as <-.
      assert (F : parse_uint U32_MAX s = Some n) by (apply parse_uint_spec; split; [unfold U32_MAX; lia|easy]).
      congruence.
  - split; [easy|]. intros (s & E & _). discriminate.
Qed.

(** ** Words *)

Lemma class_spec : forall i c, get_class i = Some c <->
  property_value i (lit "CLASS") = Some (lit (class_text c)).
Proof.
  intros i c. unfold get_class. destruct (property_value i (lit "CLASS")) as [s|]; [|easy]. split.
  - intros H. apply assoc_lit_in in H as (n & H & ->). cbn in H.
    repeat (destruct H as [H|H]; [injection H as <- <-; easy|]). easy.
  - intros H. injection H as ->. now destruct c.
Qed.
Lemma class_round : forall i c, get_class (set_class i c) = Some c.
Proof.
  intros i c. apply class_spec. unfold set_class.
  change (lit "CLASS") with (p_key (class_to_property c)). rewrite value_append_same. now destruct c.
Qed.
Lemma event_status_spec : forall i c, event_get_status i = Some c <->
  property_value i (lit "STATUS") = Some (lit (event_status_text c)).
Proof.
  intros i c. unfold event_get_status. destruct (property_value i (lit "STATUS")) as [s|]; [|easy]. split.
  - intros H. apply assoc_lit_in in H as (n & H & ->). cbn in H.
    repeat (destruct H as [H|H]; [injection H as <- <-; easy|]). easy.
  - intros H. injection H as ->. now destruct c.
Qed.
Lemma event_status_round : forall i c, event_get_status (event_set_status i c) = Some c.
Proof.
  intros i c. apply event_status_spec. unfold event_set_status.
  change (lit "STATUS") with (p_key (event_status_to_property c)). rewrite value_append_same. now destruct c.
Qed.
Lemma todo_status_spec : forall i c, todo_get_status i = Some c <->
  property_value i (lit "STATUS") = Some (lit (todo_status_text c)).
Proof.
  intros i c. unfold todo_get_status. destruct (property_value i (lit "STATUS")) as [s|]; [|easy]. split.
  - intros H. apply assoc_lit_in in H as (n & H & ->). cbn in H.
    repeat (destruct H as [H|H]; [injection H as <- <-; easy|]). easy.
  - intros H. injection H as ->. now destruct c.
Qed.
Lemma todo_status_round : forall i c, todo_get_status (todo_set_status i c) = Some c.
Proof.
  intros i c. apply todo_status_spec. unfold todo_set_status.
  change (lit "STATUS") with (p_key (todo_status_to_property c)). rewrite value_append_same. now destruct c.
Qed.

(** ** UTC time stamps *)

Lemma utc_read : forall d, real_dt d ->
  (four_digits (date_of d) -> parse_utc_date_time (format_utc_date_time d) = Some (trunc_dt d))
  /\ (~ four_digits (date_of d) -> parse_utc_date_time (format_utc_date_time d) = None).
Proof. intros d H. split; [now apply parse_dt_z_fmt|apply parse_dt_z_wide]. Qed.

Lemma trunc_dt_whole : forall d, real_dt d -> (trunc_dt d = d <-> whole_seconds (time_of d)).
Proof.
  intros [dd t] [_ H]. cbn in H |- *. rewrite <- trunc_whole by easy. unfold trunc_dt. cbn.
  split; [intros E; now injection E|]. now intros ->.
Qed.
Lemma four_digits_dec : forall d, {four_digits d} + {~ four_digits d}.
Proof.
  intros d. unfold four_digits. destruct (Z_le_dec 0 (year d)), (Z_le_dec (year d) 9999);
    [left|right|right|right]; lia.
Qed.

Lemma utc_round : forall d, real_dt d ->
  (parse_utc_date_time (format_utc_date_time d) = Some d
   <-> four_digits (date_of d) /\ whole_seconds (time_of d)).
Proof.
  intros d R. destruct (utc_read d R) as [H1 H2]. destruct (four_digits_dec (date_of d)) as [F|F].
  - rewrite H1 by easy. rewrite <- (trunc_dt_whole d R). split; [intros E; now injection E|].
    now intros [_ ->].
  - rewrite H2 by easy. split; [easy|tauto].
Qed.

Lemma timestamps_round : forall i d, real_dt d ->
  let ok := four_digits (date_of d) /\ whole_seconds (time_of d) in
  (get_timestamp (timestamp i d) = Some d <-> ok)
  /\ (get_created (created i d) = Some d <-> ok)
  /\ (get_last_modified (last_modified i d) = Some d <-> ok)
  /\ (get_completed (completed i d) = Some d <-> ok).
Proof.
  intros i d R ok. unfold get_timestamp, timestamp, get_created, created, get_last_modified,
    last_modified, get_completed, completed. rewrite !value_add_same.
  pose proof (utc_round d R) as H. fold ok in H. auto.
Qed.
(** With sub-seconds only the fraction is lost. *)
Lemma timestamps_truncate : forall i d, real_dt d -> four_digits (date_of d) ->
  get_timestamp (timestamp i d) = Some (trunc_dt d)
  /\ get_created (created i d) = Some (trunc_dt d)
  /\ get_last_modified (last_modified i d) = Some (trunc_dt d)
  /\ get_completed (completed i d) = Some (trunc_dt d).
Proof.
  intros i d R F. unfold get_timestamp, timestamp, get_created, created, get_last_modified,
    last_modified, get_completed, completed. rewrite !value_add_same.
  destruct (utc_read d R) as [H _]. auto.
Qed.

(** ** Start, end, due *)

Lemma value_type_date : forall (U : Unicode) d key, prop_value_type (naive_date_to_property d key) = Some Date.
Proof. easy. Qed.
Lemma value_type_dt : forall (U : Unicode) c key, by_name key = Some DateTime ->
  prop_value_type (cal_dt_to_property c key) = Some DateTime.
Proof. intros U [d|d|d z] key K; exact K. Qed.

Lemma dpt_read : forall (U : Unicode) x key, by_name key = Some DateTime -> real_dpt x ->
  four_digits (dpt_date x) -> dpt_from_property (dpt_to_property x key) = Some (trunc_dpt x).
Proof.
  intros U x key K R F. unfold dpt_from_property. destruct x as [c|d]; cbn [dpt_to_property].
  - rewrite value_type_dt by easy. unfold cal_dt_from_property.
    destruct c as [d|d|d z]; cbn [real_dpt dt_of dpt_date] in R, F; cbn [trunc_dpt trunc_cal_dt];
      cbn [cal_dt_to_property prop_new append_parameter hm_insert p_params p_val fst snd map_get].
    + now rewrite parse_dt_fmt.
    + rewrite parse_dt_fmt_z by easy. unfold cal_dt_from_str, parse_utc_date_time. now rewrite parse_dt_z_fmt.
    + rewrite str_eqb_refl. now rewrite parse_dt_fmt.
  - rewrite value_type_date.
    cbn [naive_date_to_property append_parameter p_val prop_new trunc_dpt]. now rewrite parse_date_fmt.
Qed.
Lemma parse_dt_z_naive_wide : forall d, ~ four_digits (date_of d) ->
  parse_dt_z (format_naive_date_time d) = None.
Proof.
  intros d F. unfold parse_dt_z. rewrite <- (app_nil_r (format_naive_date_time d)). now rewrite scan_dt_wide.
Qed.
Lemma parse_dt_utc_wide : forall d, ~ four_digits (date_of d) ->
  parse_dt (format_utc_date_time d) = None.
Proof. intros d F. unfold parse_dt, format_utc_date_time. now rewrite scan_dt_wide. Qed.

Lemma dpt_read_wide : forall (U : Unicode) x key, by_name key = Some DateTime -> 
  ~ four_digits (dpt_date x) -> dpt_from_property (dpt_to_property x key) = None.
Proof.
  intros U x key K F. unfold dpt_from_property. destruct x as [c|d]; cbn [dpt_to_property].
  - rewrite value_type_dt by easy. unfold cal_dt_from_property.
    destruct c as [d|d|d z]; cbn [dt_of dpt_date] in F;
      cbn [cal_dt_to_property prop_new append_parameter hm_insert p_params p_val fst snd map_get].
    + rewrite parse_dt_wide by easy.
      unfold cal_dt_from_str, parse_utc_date_time, parse_naive_date_time.
      now rewrite parse_dt_z_naive_wide, parse_dt_wide.
    + rewrite parse_dt_utc_wide by easy.
      unfold cal_dt_from_str, parse_utc_date_time, parse_naive_date_time.
      now rewrite parse_dt_z_wide, parse_dt_utc_wide.
    + rewrite str_eqb_refl. now rewrite parse_dt_wide.
  - rewrite value_type_date.
    cbn [naive_date_to_property append_parameter p_val prop_new]. now rewrite parse_date_wide.
Qed.

Lemma trunc_dpt_whole : forall x, real_dpt x -> (trunc_dpt x = x <-> dpt_whole x).
Proof.
  intros [[d|d|d z]|d] R; cbn in R |- *; try (rewrite <- trunc_dt_whole by easy); split; intros H; try easy;
    try (now injection H); now rewrite H.
Qed.

Lemma dpt_round : forall (U : Unicode) x key, by_name key = Some DateTime -> real_dpt x ->
  (dpt_from_property (dpt_to_property x key) = Some x <-> four_digits (dpt_date x) /\ dpt_whole x).
Proof.
  intros U x key K R. destruct (four_digits_dec (dpt_date x)) as [F|F].
  - rewrite dpt_read by easy. rewrite <- (trunc_dpt_whole x R). split; [intros E; now injection E|].
    now intros [_ ->].
  - rewrite dpt_read_wide by easy. split; [easy|tauto].
Qed.

Lemma dpt_to_property_key : forall x k, p_key (dpt_to_property x k) = k.
Proof. now intros [[]|] k. Qed.

Lemma dpt_setters_round : forall (U : Unicode) i x, real_dpt x ->
  let ok := four_digits (dpt_date x) /\ dpt_whole x in
  (get_start (starts i x) = Some x <-> ok)
  /\ (get_end (ends i x) = Some x <-> ok)
  /\ (get_due (due i x) = Some x <-> ok).
Proof.
  intros U i x R ok. unfold get_start, starts, get_end, ends, get_due, due.
  pose proof (get_append_same i (dpt_to_property x (lit "DTSTART"))) as G1.
  pose proof (get_append_same i (dpt_to_property x (lit "DTEND"))) as G2.
  pose proof (get_append_same i (dpt_to_property x (lit "DUE"))) as G3.
  rewrite dpt_to_property_key in G1, G2, G3. rewrite G1, G2, G3.
  split; [|split]; now apply dpt_round.
Qed.
Lemma dpt_setters_truncate : forall (U : Unicode) i x, real_dpt x -> four_digits (dpt_date x) ->
  get_start (starts i x) = Some (trunc_dpt x)
  /\ get_end (ends i x) = Some (trunc_dpt x)
  /\ get_due (due i x) = Some (trunc_dpt x).
Proof.
  intros U i x R F. unfold get_start, starts, get_end, ends, get_due, due.
  pose proof (get_append_same i (dpt_to_property x (lit "DTSTART"))) as G1.
  pose proof (get_append_same i (dpt_to_property x (lit "DTEND"))) as G2.
  pose proof (get_append_same i (dpt_to_property x (lit "DUE"))) as G3.
  rewrite dpt_to_property_key in G1, G2, G3. rewrite G1, G2, G3.
  repeat split; now apply dpt_read.
Qed.

(** ** All-day events *)

Lemma all_day_spec : forall (U : Unicode) i d, real_date d -> four_digits d ->
  get_start (all_day i d) = Some (DDate d) /\ get_end (all_day i d) = Some (DDate d)
  /\ (forall k, k <> lit "DTSTART" -> k <> lit "DTEND" ->
        map_get k (i_props (all_day i d)) = map_get k (i_props i))
  /\ i_multi (all_day i d) = i_multi i /\ i_comps (all_day i d) = i_comps i.
Proof.
  intros U i d R F. unfold all_day.
  set (a := naive_date_to_property d (lit "DTSTART")). set (b := naive_date_to_property d (lit "DTEND")).
  assert (A : get_start (append_property (append_property i a) b) = Some (DDate d)).
  { unfold get_start. rewrite get_append_other by discriminate.
    change (lit "DTSTART") with (p_key a). rewrite get_append_same.
    apply (dpt_read U (DDate d) (lit "DTSTART")); easy. }
  assert (B : get_end (append_property (append_property i a) b) = Some (DDate d)).
  { unfold get_end. change (lit "DTEND") with (p_key b). rewrite get_append_same.
    apply (dpt_read U (DDate d) (lit "DTEND")); easy. }
  repeat split; auto. intros k H1 H2. rewrite !get_append_other by easy. easy.
Qed.

(** ** The day of a date-time *)

Lemma fmt_date_length : forall d, real_date d -> four_digits d -> length (fmt_date d) = 8.
Proof.
  intros d R F. rewrite fmt_date_four by easy. apply real_date_spec in R as [R1 R2].
  pose proof (days_le_31 (year d) (month d)). unfold in_range in *. unfold four_digits in F. rewrite !app_length.
  destruct (pad_spec 4 (Z.to_N (year d)) ltac:(easy) ltac:(cbn; lia)) as (-> & _ & _).
  destruct (pad_spec 2 (month d) ltac:(easy) ltac:(cbn; lia)) as (-> & _ & _).
  destruct (pad_spec 2 (day d) ltac:(easy) ltac:(cbn; lia)) as (-> & _ & _). easy.
Qed.
Lemma dpt_value_text : forall x k, p_val (dpt_to_property x k) = dpt_text x.
Proof. now intros [[]|] k. Qed.
Lemma dpt_text_prefix : forall x, exists r, dpt_text x = fmt_date (date_naive x) ++ r.
Proof.
  intros [[d|d|d z]|d]; cbn [dpt_text date_naive]; unfold dt_text; rewrite <- ?app_assoc; eauto.
  exists []. now rewrite app_nil_r.
Qed.
Lemma date_naive_first8 : forall x k, real_dpt x -> four_digits (dpt_date x) ->
  parse_date (firstn 8 (p_val (dpt_to_property x k))) = Some (date_naive x).
Proof.
  intros x k R F. rewrite dpt_value_text. destruct (dpt_text_prefix x) as [r ->].
  assert (Rd : real_date (date_naive x) /\ four_digits (date_naive x))
    by (destruct x as [[d|d|d z]|d]; cbn in *; unfold real_dt in *; tauto).
  destruct Rd as [R1 R2]. pose proof (fmt_date_length _ R1 R2) as L.
  replace 8 with (length (fmt_date (date_naive x))). rewrite firstn_app_exact. now apply parse_date_fmt.
Qed.

(** ** Exactness of the date reader on eight digits *)

Lemma parse_date_canonical : forall y m d x, (y < 10000)%N -> (m < 100)%N -> (d < 100)%N ->
  (parse_date (pad 4 y ++ pad 2 m ++ pad 2 d) = Some x
   <-> x = mk_date (Z.of_N y) m d /\ real_date x).
Proof.
  intros y m d x Hy Hm Hd. unfold parse_date.
  pose proof (scan_ymd_pad y m d [] Hy Hm Hd) as S. rewrite app_nil_r in S. rewrite S.
  destruct (in_range 1 12 m && in_range 1 31 d) eqn:E.
  - rewrite from_ymd_spec. split; [tauto|]. intros [-> R]. split; [easy|]. split; [easy|lia].
  - split; [easy|]. intros [-> R]. apply real_date_spec in R as [R1 R2]. cbn in R1, R2.
    pose proof (days_le_31 (Z.of_N y) m). unfold in_range in *. lia.
Qed.

Lemma scan_hms_pad : forall h mi s r, (h < 100)%N -> (mi < 100)%N -> (s < 100)%N ->
  scan_hms (pad 2 h ++ pad 2 mi ++ pad 2 s ++ r)
  = if (h <? 24)%N && (mi <? 60)%N && (s <=? 60)%N then Some (hms_time h mi s, r) else None.
Proof.
  intros h mi s r H1 H2 H3. unfold scan_hms. rewrite scan_two_pad by easy. unfold in_range.
  replace ((0 <=? h) && (h <=? 23))%N with (h <? 24)%N by lia. destruct (h <? 24)%N; [|easy].
  rewrite scan_two_pad by easy. unfold in_range.
  replace ((0 <=? mi) && (mi <=? 59))%N with (mi <? 60)%N by lia. destruct (mi <? 60)%N; [|easy].
  rewrite scan_two_pad by easy. unfold in_range.
  replace ((0 <=? s) && (s <=? 60))%N with (s <=? 60)%N by lia. now destruct (s <=? 60)%N.
Qed.
Lemma scan_dt_pad : forall y m d h mi s r, (y < 10000)%N -> (m < 100)%N -> (d < 100)%N ->
  (h < 100)%N -> (mi < 100)%N -> (s < 100)%N -> forall x t,
  scan_dt (pad 4 y ++ pad 2 m ++ pad 2 d ++ lit "T" ++ pad 2 h ++ pad 2 mi ++ pad 2 s ++ r) = Some (x, t)
  <-> t = r /\ x = mk_dt (mk_date (Z.of_N y) m d) (hms_time h mi s)
      /\ real_date (date_of x) /\ (h < 24 /\ mi < 60 /\ s <= 60)%N.
Proof.
  intros y m d h mi s r Hy Hm Hd Hh Hmi Hs x t. unfold scan_dt. rewrite scan_ymd_pad by easy.
  destruct (in_range 1 12 m && in_range 1 31 d) eqn:E.
  - change (lit "T") with [84%N]. cbn [app scan_lit]. rewrite N.eqb_refl. rewrite scan_hms_pad by easy.
    destruct ((h <? 24) && (mi <? 60) && (s <=? 60))%N eqn:F.
    + destruct (from_ymd_opt (Z.of_N y) m d) as [dd|] eqn:G.
      * apply from_ymd_spec in G as (-> & R & _). split.
        -- intros H. injection H as <- <-. split; [easy|]. split; [easy|]. split; [easy|lia].
        -- intros (-> & -> & _). easy.
      * split; [easy|]. intros (_ & -> & R & _). cbn in R.
        rewrite (proj2 (from_ymd_spec _ _ _ (mk_date (Z.of_N y) m d))) in G; [easy|]. split; [easy|]. split; [easy|lia].
    + split; [easy|]. intros (_ & _ & _ & R). lia.
  - split; [easy|]. intros (_ & -> & R & _). cbn in R. apply real_date_spec in R as [R1 R2]. cbn in R1, R2.
    pose proof (days_le_31 (Z.of_N y) m). unfold in_range in *. lia.
Qed.
Lemma parse_dt_canonical : forall y m d h mi s x, (y < 10000)%N -> (m < 100)%N -> (d < 100)%N ->
  (h < 100)%N -> (mi < 100)%N -> (s < 100)%N ->
  let text := pad 4 y ++ pad 2 m ++ pad 2 d ++ lit "T" ++ pad 2 h ++ pad 2 mi ++ pad 2 s in
  let good := x = mk_dt (mk_date (Z.of_N y) m d) (hms_time h mi s)
      /\ real_date (date_of x) /\ (h < 24 /\ mi < 60 /\ s <= 60)%N in
  (parse_dt text = Some x <-> good) /\ (parse_dt_z (text ++ lit "Z") = Some x <-> good)
  /\ parse_dt_z text = None /\ parse_dt (text ++ lit "Z") = None.
Proof.
  intros y m d h mi s x Hy Hm Hd Hh Hmi Hs text good. unfold parse_dt, parse_dt_z.
  pose proof (fun r => scan_dt_pad y m d h mi s r Hy Hm Hd Hh Hmi Hs) as S.
  assert (T : forall r, text ++ r = pad 4 y ++ pad 2 m ++ pad 2 d ++ lit "T" ++ pad 2 h ++ pad 2 mi ++ pad 2 s ++ r).
  { intros r. unfold text. now rewrite <- !app_assoc. }
  rewrite T. replace text with (pad 4 y ++ pad 2 m ++ pad 2 d ++ lit "T" ++ pad 2 h ++ pad 2 mi ++ pad 2 s ++ [])
    by (rewrite <- T; apply app_nil_r).
  pose proof (S []) as S0. pose proof (S (lit "Z")) as SZ.
  clear S. revert S0 SZ. generalize (scan_dt (pad 4 y ++ pad 2 m ++ pad 2 d ++ lit "T" ++ pad 2 h ++ pad 2 mi ++ pad 2 s ++ [])).
  intros a. generalize (scan_dt (pad 4 y ++ pad 2 m ++ pad 2 d ++ lit "T" ++ pad 2 h ++ pad 2 mi ++ pad 2 s ++ lit "Z")).
  intros b S0 SZ.
  split; [|split; [|split]].
  - split.
    + destruct a as [[x' [|c t]]|]; try easy. intros H. injection H as ->. now apply (S0 x []).
    + intros G. now rewrite (proj2 (S0 x []) (conj eq_refl G)).
  - split.
    + destruct b as [[x' [|c [|c' t]]]|]; try easy. destruct (c =? 90)%N eqn:E; [|easy]. intros H. injection H as ->.
      now apply (SZ x [c]).
    + intros G. rewrite (proj2 (SZ x (lit "Z")) (conj eq_refl G)). easy.
  - destruct a as [[x' t]|]; [|easy]. destruct (proj1 (S0 x' t) eq_refl) as [-> _]. easy.
  - destruct b as [[x' t]|]; [|easy]. destruct (proj1 (SZ x' t) eq_refl) as [-> _]. easy.
Qed.

Lemma last_modified_wrong :
  (forall i d, map_get (lit "LAST-MODIFIED") (i_props (last_modified i d)) = map_get (lit "LAST-MODIFIED") (i_props i))
  /\ (forall i p, p_key p = lit "LAST-MODIFIED" -> get_last_modified (append_property i p) = get_last_modified i).
Proof.
  split.
  - intros i d. unfold last_modified, add_property. now apply get_append_other.
  - intros i p H. unfold get_last_modified, property_value. rewrite get_append_other; [easy|]. now rewrite H.
Qed.

Lemma timestamps_real : forall i d,
  (get_timestamp i = Some d \/ get_created i = Some d \/ get_last_modified i = Some d \/ get_completed i = Some d) ->
  real_dt d /\ whole_seconds (time_of d).
Proof.
  intros i d. unfold get_timestamp, get_created, get_last_modified, get_completed.
  intros [H|[H|[H|H]]]; destruct (property_value i _) as [s|]; try easy; exact (parse_dt_z_real s d H).
Qed.
Lemma date_naive_day : forall x k, real_dpt x -> four_digits (dpt_date x) ->
  parse_date (firstn 8 (p_val (dpt_to_property x k))) = Some (date_naive x)
  /\ firstn 8 (p_val (dpt_to_property x k))
     = pad 4 (Z.to_N (year (date_naive x))) ++ pad 2 (month (date_naive x)) ++ pad 2 (day (date_naive x)).
Proof.
  intros x k R F. split; [now apply date_naive_first8|].
  rewrite dpt_value_text. destruct (dpt_text_prefix x) as [r ->].
  assert (Rd : real_date (date_naive x) /\ four_digits (date_naive x))
    by (destruct x as [[d|d|d z]|d]; cbn in *; unfold real_dt in *; tauto).
  destruct Rd as [R1 R2]. pose proof (fmt_date_length _ R1 R2) as L.
  replace 8 with (length (fmt_date (date_naive x))). rewrite firstn_app_exact. now apply fmt_date_four.
Qed.
Lemma all_day_text : forall i d,
  map_get (lit "DTSTART") (i_props (all_day i d)) = Some (mk_property (lit "DTSTART") (fmt_date d) [(lit "VALUE", lit "DATE")])
  /\ map_get (lit "DTEND") (i_props (all_day i d)) = Some (mk_property (lit "DTEND") (fmt_date d) [(lit "VALUE", lit "DATE")]).
Proof.
  intros i d. unfold all_day.
  set (a := naive_date_to_property d (lit "DTSTART")). set (b := naive_date_to_property d (lit "DTEND")). split.
  - rewrite get_append_other by discriminate. change (lit "DTSTART") with (p_key a) at 1. now rewrite get_append_same.
  - change (lit "DTEND") with (p_key b) at 1. now rewrite get_append_same.
Qed.
