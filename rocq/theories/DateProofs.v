(** Printing and reading dates. *)
From Verif Require Import Str StrFacts ValueTypes Property Chrono DateTime Component SpecDate SpecBuild BuildProofs.
From Coq Require Import ZifyBool ZifyNat ZifyN.

(** ** Numerals *)

Lemma decimal_spec : forall s n, decimal s n <-> s <> [] /\ forallb is_digit s = true /\ dec_val s = n.
Proof.
  intros s n. split.
  - intros H. induction H as [d Hd|s n d H (I1 & I2 & I3) Hd].
    + repeat split; [easy| |].
      * cbn [forallb]. rewrite andb_true_r. apply is_digit_range. lia.
      * unfold dec_val. cbn. lia.
    + repeat split; [now destruct s| |].
      * rewrite forallb_app, I2. cbn [forallb andb]. rewrite andb_true_r. apply is_digit_range. lia.
      * rewrite dec_val_snoc, I3. lia.
  - revert n. induction s as [|c s IH] using rev_ind; intros n (H1 & H2 & H3); [easy|].
    rewrite forallb_app in H2. apply andb_true_iff in H2 as [H2 H4]. cbn [forallb] in H4.
    rewrite andb_true_r in H4. apply is_digit_range in H4. rewrite dec_val_snoc in H3.
    destruct s as [|c0 s].
    + cbn in *. subst n. replace c with (48 + (c - 48))%N at 1 by lia.
      replace (dec_val [] * 10 + (c - 48))%N with (c - 48)%N by (unfold dec_val; cbn; lia).
      constructor. lia.
    + assert (D : decimal (c0 :: s) (dec_val (c0 :: s))) by (apply IH; repeat split; easy).
      replace c with (48 + (c - 48))%N by lia. replace n with (10 * dec_val (c0 :: s) + (c - 48))%N by lia.
      constructor; [easy|lia].
Qed.

Lemma parse_uint_spec : forall mx s n, parse_uint mx s = Some n <->
  (n <= mx)%N /\ (decimal s n \/ exists r, s = PLUS :: r /\ decimal r n).
Proof.
  intros mx s n. unfold parse_uint.
  set (d := match s with [] => s | c :: r => if (c =? PLUS)%N then r else s end).
  assert (D : decimal d n <-> decimal s n \/ exists r, s = PLUS :: r /\ decimal r n).
  { unfold d. destruct s as [|c r].
    - split; [auto|]. intros [H|(r & E & _)]; [easy|discriminate].
    - destruct (c =? PLUS)%N eqn:E.
      + apply N.eqb_eq in E. subst c. split; [eauto|]. intros [H|(r' & E & H)].
        * apply decimal_spec in H as (_ & H & _). discriminate.
        * now injection E as ->.
      + split; [auto|]. intros [H|(r' & E' & H)]; [easy|]. injection E' as -> ->. lia. }
  rewrite <- D. rewrite decimal_spec. clear D. split.
  - intros H. destruct d as [|c r]; [easy|]. destruct (forallb is_digit (c :: r)) eqn:F; [|easy].
    destruct (dec_val (c :: r) <=? mx)%N eqn:G; [|easy]. injection H as <-. repeat split; auto; [lia|easy].
  - intros (L & H1 & H2 & H3). destruct d as [|c r]; [easy|]. rewrite H2, H3.
    now replace (n <=? mx)%N with true by lia.
Qed.

Lemma span_digits_exact : forall w ds r, length ds = w -> forallb is_digit ds = true ->
  span_digits (Some w) (ds ++ r) = (ds, r).
Proof.
  induction w as [|w IH]; intros ds r L H.
  - destruct ds; [|discriminate]. now destruct r.
  - destruct ds as [|c ds]; [discriminate|]. cbn [forallb] in H. apply andb_true_iff in H as [H1 H2].
    cbn [app span_digits option_map pred]. rewrite H1, IH; [easy| |easy]. now injection L.
Qed.
Definition no_digit_head (r : str) : Prop := match r with c :: _ => is_digit c = false | [] => True end.
Lemma span_digits_all : forall ds r, forallb is_digit ds = true -> no_digit_head r ->
  span_digits None (ds ++ r) = (ds, r).
Proof.
  induction ds as [|c ds IH]; intros r H N.
  - destruct r as [|c r]; [easy|]. cbn in *. now rewrite N.
  - cbn [forallb] in H. apply andb_true_iff in H as [H1 H2]. cbn. rewrite H1. now rewrite IH.
Qed.

Lemma scan_number_pad : forall w n r, w <> 0 -> (n < 10 ^ N.of_nat w)%N -> (n <= I64_MAX)%N ->
  scan_number (Some w) (pad w n ++ r) = Some (n, r).
Proof.
  intros w n r Hw H L. destruct (pad_spec w n Hw H) as (P1 & P2 & P3). unfold scan_number.
  rewrite span_digits_exact by easy. rewrite P3. replace (n <=? I64_MAX)%N with true by lia.
  destruct (pad w n); [|easy]. cbn in P1. lia.
Qed.

Lemma pad_head : forall w n, w <> 0 -> (n < 10 ^ N.of_nat w)%N -> exists c r, pad w n = c :: r /\ is_digit c = true.
Proof.
  intros w n Hw H. destruct (pad_spec w n Hw H) as (P1 & P2 & P3).
  destruct (pad w n) as [|c r]; [cbn in P1; lia|]. cbn in P2. exists c, r. split; [easy|lia].
Qed.
Lemma digit_not_ws : forall c, is_digit c = true -> is_ws c = false.
Proof. intros c H. apply is_digit_range in H. unfold is_ws, in_range. lia. Qed.
Lemma trim_pad : forall w n r, w <> 0 -> (n < 10 ^ N.of_nat w)%N -> trim_start (pad w n ++ r) = pad w n ++ r.
Proof.
  intros w n r Hw H. destruct (pad_head w n Hw H) as (c & t & -> & D). cbn. now rewrite digit_not_ws.
Qed.

Lemma scan_two_pad : forall lo hi n r, (n < 100)%N ->
  scan_two lo hi (pad 2 n ++ r) = if in_range lo hi n then Some (n, r) else None.
Proof.
  intros lo hi n r H. unfold scan_two. rewrite trim_pad by (cbn; lia).
  rewrite scan_number_pad; [easy|easy| |]; cbn; unfold I64_MAX; lia.
Qed.
Lemma scan_year_pad : forall n r, (n < 10000)%N -> scan_year (pad 4 n ++ r) = Some (Z.of_N n, r).
Proof.
  intros n r H. unfold scan_year. rewrite trim_pad by (cbn; lia).
  pose proof (scan_number_pad 4 n r ltac:(easy) ltac:(cbn; lia) ltac:(unfold I64_MAX; lia)) as S.
  destruct (pad_head 4 n ltac:(easy) ltac:(cbn; lia)) as (c & t & E & D). rewrite E in *.
  cbn [app] in *. apply is_digit_range in D.
  replace (c =? DASH)%N with false by (unfold DASH; lia).
  replace (c =? PLUS)%N with false by (unfold PLUS; lia). rewrite S. cbn [option_map].
  now replace ((-2147483648 <=? Z.of_N n) && (Z.of_N n <=? 2147483647))%Z with true by lia.
Qed.

Lemma scan_ymd_pad : forall y m d r, (y < 10000)%N -> (m < 100)%N -> (d < 100)%N ->
  scan_ymd (pad 4 y ++ pad 2 m ++ pad 2 d ++ r)
  = if in_range 1 12 m && in_range 1 31 d then Some (Z.of_N y, m, d, r) else None.
Proof.
  intros y m d r Hy Hm Hd. unfold scan_ymd. rewrite scan_year_pad by easy.
  rewrite scan_two_pad by easy. destruct (in_range 1 12 m); [|easy].
  rewrite scan_two_pad by easy. now destruct (in_range 1 31 d).
Qed.

(** ** Real dates *)

Lemma leap_spec : forall y, is_leap y = true <-> leap_year y.
Proof. intros y. unfold is_leap, leap_year. lia. Qed.
Lemma days_spec : forall y m l, in_range 1 12 m = true -> (month_length y m l <-> l = days_in_month y m).
Proof.
  intros y m l H. unfold in_range in H.
  assert (Hm : In m [1;2;3;4;5;6;7;8;9;10;11;12]%N) by (cbn; lia).
  split.
  - intros M. inversion M as [y' m' I|y' m' I|y' L|y' L]; subst.
    + cbn in I. repeat (destruct I as [<-|I]; [reflexivity|]). easy.
    + cbn in I. repeat (destruct I as [<-|I]; [reflexivity|]). easy.
    + apply leap_spec in L. unfold days_in_month. now rewrite L.
    + rewrite <- leap_spec in L. unfold days_in_month. now destruct (is_leap y).
  - intros ->. cbn in Hm. destruct (N.eq_dec m 2) as [->|Ne].
    + unfold days_in_month. cbn. destruct (is_leap y) eqn:E.
      * apply leap_spec in E. now constructor.
      * constructor. intros F. apply leap_spec in F. congruence.
    + repeat (destruct Hm as [<-|Hm]; [try (apply ml_31; cbn; tauto); try (apply ml_30; cbn; tauto); easy|]). easy.
Qed.
Lemma month_length_range : forall y m l, month_length y m l -> in_range 1 12 m = true /\ (28 <= l <= 31)%N.
Proof.
  intros y m l M. inversion M as [y' m' I|y' m' I|y' L|y' L]; subst; try (split; [easy|lia]);
    cbn in I; split; try lia; repeat (destruct I as [<-|I]; [easy|]); easy.
Qed.

Lemma real_date_spec : forall d, real_date d <->
  in_range 1 12 (month d) = true /\ in_range 1 (days_in_month (year d) (month d)) (day d) = true.
Proof.
  intros d. unfold real_date. split.
  - intros (H1 & l & M & H2). pose proof (month_length_range _ _ _ M) as [R _]. split; [easy|].
    apply (days_spec _ _ _ R) in M as ->. unfold in_range. lia.
  - intros [R H]. unfold in_range in H. split; [lia|]. exists (days_in_month (year d) (month d)).
    split; [now apply days_spec|lia].
Qed.
Lemma days_le_31 : forall y m, (days_in_month y m <= 31)%N.
Proof.
  intros. unfold days_in_month. destruct (m =? 2)%N; [destruct (is_leap y); lia|].
  destruct (_ || _); lia.
Qed.

Lemma from_ymd_spec : forall y m d x, from_ymd_opt y m d = Some x <->
  x = mk_date y m d /\ real_date x /\ (-262143 <= y <= 262142)%Z.
Proof.
  intros y m d x. unfold from_ymd_opt. rewrite real_date_spec. split.
  - destruct (_ && _) eqn:E; [|easy]. intros H. injection H as <-. cbn.
    apply andb_true_iff in E as [E E3]. apply andb_true_iff in E as [E1 E2]. split; [easy|]. split; [easy|]. lia.
  - intros (-> & [R1 R2] & R3). cbn in *. rewrite R1, R2.
    now replace ((-262143 <=? y) && (y <=? 262142))%Z with true by lia.
Qed.

(** ** Printing and reading back *)

Lemma fmt_date_four : forall d, four_digits d ->
  fmt_date d = pad 4 (Z.to_N (year d)) ++ pad 2 (month d) ++ pad 2 (day d).
Proof.
  intros d H. unfold four_digits in H. unfold fmt_date, fmt_year.
  now replace ((0 <=? year d) && (year d <=? 9999))%Z with true by lia.
Qed.

Lemma scan_ymd_fmt : forall d r, real_date d -> four_digits d ->
  scan_ymd (fmt_date d ++ r) = Some (year d, month d, day d, r).
Proof.
  intros d r R F. rewrite fmt_date_four by easy. rewrite <- !app_assoc. unfold four_digits in F.
  apply real_date_spec in R as [R1 R2]. pose proof (days_le_31 (year d) (month d)).
  unfold in_range in R1, R2. rewrite scan_ymd_pad by lia.
  replace (in_range 1 12 (month d) && in_range 1 31 (day d)) with true by (unfold in_range; lia).
  now rewrite Z2N.id by lia.
Qed.

Lemma from_ymd_real : forall d, real_date d -> four_digits d ->
  from_ymd_opt (year d) (month d) (day d) = Some d.
Proof.
  intros d R F. apply from_ymd_spec. unfold four_digits in F. destruct d as [y m dd]. cbn in *.
  split; [easy|]. split; [easy|lia].
Qed.

Lemma trunc_whole : forall t, real_time t -> (trunc_time t = t <-> whole_seconds t).
Proof.
  intros [h m s n] (H1 & H2 & H3 & H4). unfold trunc_time, whole_seconds. cbn in *.
  destruct (n <? 1000000000)%N eqn:E; split.
  - intros H. injection H as <-. auto.
  - intros [->| ->]; [easy|lia].
  - intros H. injection H. intros. auto.
  - intros [->| ->]; [lia|]. now replace s with 59%N by lia.
Qed.

Lemma scan_hms_fmt : forall t r, real_time t -> scan_hms (fmt_time t ++ r) = Some (trunc_time t, r).
Proof.
  intros [h m s n] r (H1 & H2 & H3 & H4). unfold fmt_time, scan_hms, trunc_time. cbn [hour minute second nano] in *.
  rewrite <- !app_assoc.
  assert (Q : (n / 1000000000 = if n <? 1000000000 then 0 else 1)%N).
  { destruct (n <? 1000000000)%N eqn:E; [apply N.div_small; lia|].
    symmetry. apply (N.div_unique _ _ 1 (n - 1000000000)); lia. }
  rewrite Q. rewrite scan_two_pad by lia. replace (in_range 0 23 h) with true by (unfold in_range; lia).
  rewrite scan_two_pad by lia. replace (in_range 0 59 m) with true by (unfold in_range; lia).
  destruct (n <? 1000000000)%N eqn:E.
  - rewrite scan_two_pad by lia. replace (in_range 0 60 (s + 0)) with true by (unfold in_range; lia).
    replace (s + 0)%N with s by lia. now replace (s =? 60)%N with false by lia.
  - rewrite scan_two_pad by lia. replace (in_range 0 60 (s + 1)) with true by (unfold in_range; lia).
    replace s with 59%N by lia. easy.
Qed.

Lemma scan_dt_fmt : forall d r, real_dt d -> four_digits (date_of d) ->
  scan_dt (format_naive_date_time d ++ r) = Some (trunc_dt d, r).
Proof.
  intros d r [R1 R2] F. unfold scan_dt, format_naive_date_time. rewrite <- !app_assoc.
  rewrite scan_ymd_fmt by easy. change (lit "T" ++ ?x) with (84%N :: x). cbn [scan_lit].
  change (84 =? 84)%N with true. cbv iota. rewrite scan_hms_fmt by easy.
  now rewrite from_ymd_real.
Qed.

Lemma parse_date_fmt : forall d, real_date d -> four_digits d -> parse_date (fmt_date d) = Some d.
Proof.
  intros d R F. unfold parse_date. rewrite <- (app_nil_r (fmt_date d)), scan_ymd_fmt by easy.
  now apply from_ymd_real.
Qed.
Lemma parse_dt_fmt : forall d, real_dt d -> four_digits (date_of d) ->
  parse_dt (format_naive_date_time d) = Some (trunc_dt d).
Proof.
  intros d R F. unfold parse_dt. rewrite <- (app_nil_r (format_naive_date_time d)).
  now rewrite scan_dt_fmt.
Qed.
Lemma parse_dt_fmt_z : forall d, real_dt d -> four_digits (date_of d) ->
  parse_dt (format_utc_date_time d) = None.
Proof. intros d R F. unfold parse_dt, format_utc_date_time. now rewrite scan_dt_fmt. Qed.
Lemma parse_dt_z_fmt : forall d, real_dt d -> four_digits (date_of d) ->
  parse_dt_z (format_utc_date_time d) = Some (trunc_dt d).
Proof. intros d R F. unfold parse_dt_z, format_utc_date_time. now rewrite scan_dt_fmt. Qed.
Lemma parse_dt_z_fmt_naive : forall d, real_dt d -> four_digits (date_of d) ->
  parse_dt_z (format_naive_date_time d) = None.
Proof.
  intros d R F. unfold parse_dt_z. rewrite <- (app_nil_r (format_naive_date_time d)).
  now rewrite scan_dt_fmt.
Qed.

(** Years that are not written with four digits are never read back. *)
Lemma pad_digits : forall w n, forallb is_digit (pad w n) = true.
Proof.
  intros w n. unfold pad. rewrite forallb_app, dec_digits, andb_true_r.
  now induction (w - length (dec n)).
Qed.
Lemma scan_ymd_wide : forall d r, ~ four_digits d -> no_digit_head r ->
  match r with c :: _ => is_ws c = false | [] => True end -> scan_ymd (fmt_date d ++ r) = None.
Proof.
  intros d r F N W. unfold scan_ymd, fmt_date, fmt_year. unfold four_digits in F.
  replace ((0 <=? year d) && (year d <=? 9999))%Z with false by lia.
  set (ds := pad 4 (Z.abs_N (year d)) ++ pad 2 (month d) ++ pad 2 (day d)).
  assert (Hd : forallb is_digit ds = true) by (unfold ds; rewrite !forallb_app, !pad_digits; easy).
  assert (S : scan_number None (ds ++ r) = None \/ exists n, scan_number None (ds ++ r) = Some (n, r)).
  { unfold scan_number. rewrite span_digits_all by easy. destruct ds; [auto|].
    destruct (_ <=? _)%N; eauto. }
  assert (T : scan_two 1 12 r = None).
  { unfold scan_two. assert (trim_start r = r) as -> by (destruct r as [|c r]; [easy|]; cbn; now rewrite W).
    unfold scan_number. destruct r as [|c r]; [easy|]. cbn in N. cbn [span_digits]. now rewrite N. }
  assert (Y : forall c, c = DASH \/ c = PLUS ->
     match scan_year (c :: ds ++ r) with
     | Some (y, s1) => match scan_two 1 12 s1 with
                       | Some (m, s2) => match scan_two 1 31 s2 with
                                         | Some (d0, s3) => Some (y, m, d0, s3) | None => None end
                       | None => None end
     | None => None end = None).
  { intros c Hc. unfold scan_year.
    assert (trim_start (c :: ds ++ r) = c :: ds ++ r) as -> by (now destruct Hc as [-> | ->]).
    destruct (c =? DASH)%N eqn:E1.
    - destruct S as [->|[n ->]]; [easy|]. cbn [option_map]. destruct (_ && _)%Z; [|easy]. now rewrite T.
    - replace (c =? PLUS)%N with true by (unfold DASH, PLUS in *; lia).
      destruct S as [->|[n ->]]; [easy|]. cbn [option_map]. destruct (_ && _)%Z; [|easy]. now rewrite T. }
  cbn [app]. fold ds. destruct (year d <? 0)%Z; [apply (Y DASH)|apply (Y PLUS)]; auto.
Qed.

Lemma scan_dt_wide : forall d r, ~ four_digits (date_of d) -> scan_dt (format_naive_date_time d ++ r) = None.
Proof.
  intros d r F. unfold scan_dt, format_naive_date_time. rewrite <- !app_assoc.
  now rewrite scan_ymd_wide.
Qed.
Lemma parse_dt_wide : forall d, ~ four_digits (date_of d) -> parse_dt (format_naive_date_time d) = None.
Proof.
  intros d F. unfold parse_dt. rewrite <- (app_nil_r (format_naive_date_time d)). now rewrite scan_dt_wide.
Qed.
Lemma parse_dt_z_wide : forall d, ~ four_digits (date_of d) -> parse_dt_z (format_utc_date_time d) = None.
Proof. intros d F. unfold parse_dt_z, format_utc_date_time. now rewrite scan_dt_wide. Qed.
Lemma parse_date_wide : forall d, ~ four_digits d -> parse_date (fmt_date d) = None.
Proof.
  intros d F. unfold parse_date. rewrite <- (app_nil_r (fmt_date d)). now rewrite scan_ymd_wide.
Qed.

(** ** What is read is real *)

Lemma scan_two_range : forall lo hi s n r, scan_two lo hi s = Some (n, r) -> (lo <= n <= hi)%N.
Proof.
  intros lo hi s n r. unfold scan_two. destruct (scan_number _ _) as [[m t]|]; [|easy].
  destruct (in_range lo hi m) eqn:E; [|easy]. intros H. injection H as <- _. unfold in_range in E. lia.
Qed.
Lemma scan_hms_real : forall s t r, scan_hms s = Some (t, r) -> real_time t /\ whole_seconds t.
Proof.
  intros s t r. unfold scan_hms. destruct (scan_two 0 23 s) as [[h s1]|] eqn:E1; [|easy].
  destruct (scan_two 0 59 s1) as [[m s2]|] eqn:E2; [|easy].
  destruct (scan_two 0 60 s2) as [[x s3]|] eqn:E3; [|easy]. intros H. injection H as <- _.
  apply scan_two_range in E1, E2, E3. unfold real_time, whole_seconds. destruct (x =? 60)%N eqn:E; cbn; lia.
Qed.
Lemma parse_date_real : forall s d, parse_date s = Some d -> real_date d.
Proof.
  intros s d. unfold parse_date. destruct (scan_ymd s) as [[[[y m] dd] [|c r]]|]; [|easy|easy].
  intros H. apply from_ymd_spec in H. tauto.
Qed.
Lemma scan_dt_real : forall s d r, scan_dt s = Some (d, r) -> real_dt d /\ whole_seconds (time_of d).
Proof.
  intros s d r. unfold scan_dt. destruct (scan_ymd s) as [[[[y m] dd] s1]|]; [|easy].
  destruct (scan_lit _ s1) as [s2|]; [|easy]. destruct (scan_hms s2) as [[t s3]|] eqn:E; [|easy].
  destruct (from_ymd_opt y m dd) as [x|] eqn:F; [|easy]. intros H. injection H as <- _.
  apply from_ymd_spec in F as (_ & F & _). apply scan_hms_real in E as [E1 E2]. split; [split; assumption|assumption].
Qed.
Lemma parse_dt_real : forall s d, parse_dt s = Some d -> real_dt d /\ whole_seconds (time_of d).
Proof.
  intros s d. unfold parse_dt. destruct (scan_dt s) as [[x [|c r]]|] eqn:E; [|easy|easy].
  intros H. injection H as <-. now apply scan_dt_real in E.
Qed.
Lemma parse_dt_z_real : forall s d, parse_dt_z s = Some d -> real_dt d /\ whole_seconds (time_of d).
Proof.
  intros s d. unfold parse_dt_z. destruct (scan_dt s) as [[x [|c [|c' r]]]|] eqn:E; try easy.
  destruct (c =? 90)%N; [|easy]. intros H. injection H as <-. now apply scan_dt_real in E.
Qed.
Lemma cal_dt_from_str_real : forall s c, cal_dt_from_str s = Some c ->
  real_dt (dt_of c) /\ whole_seconds (time_of (dt_of c)).
Proof.
  intros s c. unfold cal_dt_from_str, parse_utc_date_time, parse_naive_date_time.
  destruct (parse_dt_z s) as [d|] eqn:E1.
  - intros H. injection H as <-. now apply parse_dt_z_real in E1.
  - destruct (parse_dt s) as [d|] eqn:E2; [|easy]. intros H. injection H as <-.
    now apply parse_dt_real in E2.
Qed.
Lemma cal_dt_from_property_real : forall p c, cal_dt_from_property p = Some c ->
  real_dt (dt_of c) /\ whole_seconds (time_of (dt_of c)).
Proof.
  intros p c. unfold cal_dt_from_property. destruct (map_get _ _) as [tz|].
  - destruct (parse_dt (p_val p)) as [d|] eqn:E; [|easy]. intros H. injection H as <-.
    now apply parse_dt_real in E.
  - destruct (parse_dt (p_val p)) as [d|] eqn:E.
    + intros H. injection H as <-. now apply parse_dt_real in E.
    + apply cal_dt_from_str_real.
Qed.
Lemma dpt_from_property_real : forall (U : Unicode) p x, dpt_from_property p = Some x ->
  real_dpt x /\ dpt_whole x.
Proof.
  intros U p x. unfold dpt_from_property.
  assert (A : option_map DT (cal_dt_from_property p) = Some x -> real_dpt x /\ dpt_whole x).
  { destruct (cal_dt_from_property p) as [c|] eqn:E; [|easy]. intros H. injection H as <-.
    now apply cal_dt_from_property_real in E. }
  destruct (prop_value_type p) as [[]|]; try exact A.
  destruct (parse_date (p_val p)) as [d|] eqn:E; [|easy]. intros H. injection H as <-.
  apply parse_date_real in E. now split.
Qed.
