(** Dates of every year. *)
From Coq Require Import ZifyBool ZifyNat ZifyN.
From Verif Require Import Str StrFacts Property Chrono DateTime SpecDate SpecText DateProofs SetterProofs CalProofs WrittenProofs SpecWide.

Lemma dec_hd : forall n, (n <> 0)%N -> hd 0%N (dec n) <> 48%N.
Proof.
  intros n H E. destruct (plain_dec n) as [D P]. specialize (P E). rewrite P in D.
  apply decimal_spec in D as (_ & _ & D). vm_compute in D. congruence.
Qed.
Lemma fmt_year_written : forall y, year_written y (fmt_year y).
Proof.
  intros y. unfold fmt_year. destruct ((0 <=? y) && (y <=? 9999))%Z eqn:E.
  - apply yw_four; [lia|]. apply digits_pad; [easy|]. change (10 ^ N.of_nat 4)%N with 10000%N. lia.
  - destruct (y <? 0)%Z eqn:F.
    + apply yw_before; [lia| | |].
      * replace (Z.to_N (- y)) with (Z.abs_N y) by lia. apply decimal_spec. unfold pad.
        destruct (dec_spec (Z.abs_N y)) as (A & B & C & _). split; [intros Q; apply app_eq_nil in Q; tauto|].
        split; [rewrite forallb_app, B, andb_true_r; clear; now induction (4 - length (dec (Z.abs_N y)))|]. now rewrite dec_val_zeros.
      * unfold pad. rewrite app_length, repeat_length. lia.
      * unfold pad. destruct (4 - length (dec (Z.abs_N y))) as [|k] eqn:K.
        -- cbn [repeat app]. intros Q. exfalso. apply (dec_hd (Z.abs_N y)); [lia|exact Q].
        -- intros _. rewrite app_length, repeat_length. lia.
    + destruct (dec_spec (Z.abs_N y)) as (_ & _ & _ & _ & L). specialize (L 4).
      change (10 ^ N.of_nat 4)%N with 10000%N in L. unfold pad. replace (4 - length (dec (Z.abs_N y))) with 0 by lia. cbn [repeat app].
      apply yw_after; [lia| |apply dec_hd; lia]. replace (Z.to_N y) with (Z.abs_N y) by lia. apply decimal_dec.
Qed.
Lemma day_fmt : forall d, real_date d -> day_written d (fmt_date d).
Proof.
  intros d R. destruct (real_month_day d R) as [M D]. exists (fmt_year (year d)), (pad 2 (month d)), (pad 2 (day d)).
  split; [reflexivity|]. split; [apply fmt_year_written|]. split; apply digits_pad; easy.
Qed.
Lemma moment_fmt : forall d, real_dt d -> moment_written d (format_naive_date_time d).
Proof.
  intros d [R T]. exists (fmt_date (date_of d)), (fmt_time (time_of d)). split; [reflexivity|]. split; [now apply day_fmt|now apply time_written].
Qed.
Lemma dpt_fmt : forall x k, real_dpt x ->
  p_key (dpt_to_property x k) = k /\ dpt_written x (p_val (dpt_to_property x k)) (p_params (dpt_to_property x k)).
Proof.
  intros [[d|d|d z]|d] k R; cbn in R; (split; [reflexivity|]); cbn [dpt_written].
  - split; [now apply moment_fmt|reflexivity].
  - split; [|reflexivity]. exists (format_naive_date_time d). split; [reflexivity|now apply moment_fmt].
  - split; [now apply moment_fmt|reflexivity].
  - split; [now apply day_fmt|reflexivity].
Qed.

(** ** The text tells the day. *)
Lemma digits_value : forall w n m s, digits w n s -> digits w m s -> n = m.
Proof. intros w n m s [_ A] [_ B]. now apply (decimal_functional s). Qed.
Lemma year_written_back : forall y z s, year_written y s -> year_written z s -> y = z.
Proof.
  intros y z s A B. inversion A as [s1 R1 D1 E1|s1 R1 D1 H1 E1|s1 R1 D1 L1 H1 E1]; subst;
    inversion B as [s2 R2 D2 E2|s2 R2 D2 H2 E2|s2 R2 D2 L2 H2 E2]; subst;
    try (match goal with D : digits 4 _ (?c :: _) |- _ => destruct D as [_ D]; apply decimal_chars in D as [_ D]; discriminate D end).
  - pose proof (digits_value _ _ _ _ D1 D2). lia.
  - pose proof (decimal_functional _ _ _ D1 D2). lia.
  - pose proof (decimal_functional _ _ _ D1 D2). lia.
Qed.
Lemma day_written_back : forall d d' s, day_written d s -> day_written d' s -> d = d'.
Proof.
  intros [y m d] [y' m' d'] s (a & b & c & E & Y & M & D) (a' & b' & c' & E' & Y' & M' & D'). cbn [year month day] in *. subst s.
  assert (L : length c = 2 /\ length c' = 2 /\ length b = 2 /\ length b' = 2) by (split; [apply D|split; [apply D'|split; [apply M|apply M']]]).
  assert (T : forall (x x' u u' : str), length u = length u' -> x ++ u = x' ++ u' -> x = x' /\ u = u').
  { intros x x' u u' LL EE. assert (length x = length x') by (apply (f_equal (@length N)) in EE; rewrite !app_length in EE; lia).
    revert x' H EE. induction x as [|q x IH]; intros [|q' x'] H EE; cbn in *; try lia; [easy|].
    injection EE as -> EE. destruct (IH x') as [-> ->]; [lia|easy|easy]. }
  apply T in E' as [-> E']; [|rewrite !app_length; lia]. apply T in E' as [-> ->]; [|lia].
  pose proof (year_written_back _ _ _ Y Y'). pose proof (digits_value _ _ _ _ M M'). pose proof (digits_value _ _ _ _ D D'). now subst.
Qed.
Lemma dpt_front : forall x k, real_dpt x -> exists a r, p_val (dpt_to_property x k) = a ++ r /\ day_written (date_naive x) a
  /\ (r = [] \/ exists t, r = lit "T" ++ t).
Proof.
  intros x k R. destruct (dpt_fmt x k R) as [_ W]. destruct x as [[d|d|d z]|d]; cbn [dpt_written date_naive] in *.
  - destruct W as [(a & b & E & D & _) _]. exists a, (lit "T" ++ b). split; [easy|]. split; [easy|]. right. now exists b.
  - destruct W as [(s & E' & a & b & E & D & _) _]. exists a, (lit "T" ++ b ++ lit "Z"). rewrite E', E, <- !app_assoc. split; [easy|]. split; [easy|].
    right. now exists (b ++ lit "Z").
  - destruct W as [(a & b & E & D & _) _]. exists a, (lit "T" ++ b). split; [easy|]. split; [easy|]. right. now exists b.
  - destruct W as [D _]. exists (p_val (dpt_to_property (DDate d) k)), []. rewrite app_nil_r. auto.
Qed.
(** A sign and digits only are no date: all of them are the year. *)
Lemma signed_digits : forall c ds, c = DASH \/ c = PLUS -> forallb is_digit ds = true -> parse_date (c :: ds) = None.
Proof.
  intros c ds C D. unfold parse_date, scan_ymd, scan_year.
  assert (trim_start (c :: ds) = c :: ds) as -> by (now destruct C as [-> | ->]).
  assert (S : scan_number None ds = None \/ exists n, scan_number None ds = Some (n, [])).
  { unfold scan_number. pose proof (span_digits_all ds [] D I) as Q. rewrite app_nil_r in Q. rewrite Q. destruct ds; [auto|]. destruct (_ <=? _)%N; eauto. }
  destruct (c =? DASH)%N eqn:E1.
  - destruct S as [->|[n ->]]; [easy|]. cbn [option_map]. now destruct (_ && _)%Z.
  - replace (c =? PLUS)%N with true by (unfold DASH, PLUS in *; lia).
    destruct S as [->|[n ->]]; [easy|]. cbn [option_map]. now destruct (_ && _)%Z.
Qed.
Lemma first8_wide : forall d r, ~ four_digits d -> parse_date (firstn 8 (fmt_date d ++ r)) = None.
Proof.
  intros d r F. unfold fmt_date, fmt_year. unfold four_digits in F.
  replace ((0 <=? year d) && (year d <=? 9999))%Z with false by lia.
  set (ds := pad 4 (Z.abs_N (year d)) ++ pad 2 (month d) ++ pad 2 (day d)). cbn [app]. fold ds.
  assert (Hd : forallb is_digit ds = true) by (unfold ds; rewrite !forallb_app, !pad_digits; easy).
  assert (PL : forall w n, w <= length (pad w n)) by (intros w n; unfold pad; rewrite app_length, repeat_length; lia).
  assert (L : 8 <= length ds).
  { unfold ds. rewrite !app_length. pose proof (PL 4 (Z.abs_N (year d))). pose proof (PL 2 (month d)). pose proof (PL 2 (day d)). lia. }
  rewrite firstn_cons, firstn_app. replace (7 - length ds) with 0 by lia. cbn [firstn]. rewrite app_nil_r.
  apply signed_digits; [destruct (year d <? 0)%Z; auto|].
  rewrite <- (firstn_skipn 7 ds), forallb_app in Hd. now apply andb_true_iff in Hd as [H _].
Qed.
Lemma date_naive_exact : forall x k, real_dpt x ->
  (parse_date (firstn 8 (p_val (dpt_to_property x k))) = Some (date_naive x) <-> four_digits (dpt_date x)).
Proof.
  intros x k R. assert (E : dpt_date x = date_naive x) by (now destruct x as [[d|d|d z]|d]).
  assert (Dec : four_digits (dpt_date x) \/ ~ four_digits (dpt_date x)) by (unfold four_digits; lia).
  split; intros H; [|now apply date_naive_first8].
  destruct Dec as [F|F]; [easy|]. exfalso. rewrite dpt_value_text in H. destruct (dpt_text_prefix x) as [r Q]. rewrite Q in H.
  rewrite first8_wide in H; [easy|now rewrite <- E].
Qed.
