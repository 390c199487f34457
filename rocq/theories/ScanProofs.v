(** Which texts are dates and times. *)
From Verif Require Import Str StrFacts ValueTypes Property Chrono DateTime Component Calendar Nom Parser
  SpecDate SpecBuild SpecMore BuildProofs DateProofs ValueProofs MoreProofs SpecScan.
From Coq Require Import ZifyBool ZifyNat ZifyN.

Lemma digit_next_spec : forall s, digit_next s <-> exists c r, s = c :: r /\ is_digit c = true.
Proof.
  intros s. split.
  - intros (d & r & D & ->). exists (48 + d)%N, r. split; [easy|]. apply is_digit_range. lia.
  - intros (c & r & -> & D). apply is_digit_range in D. exists (c - 48)%N, r. split; [lia|]. f_equal. lia.
Qed.
Lemma span_digits_spec : forall s w ds r, span_digits w s = (ds, r) <-> s = ds ++ r /\ forallb is_digit ds = true /\ at_most w ds r.
Proof.
  assert (Z : forall s, ~ digit_next [] /\ (forall c, is_digit c = false -> ~ digit_next (c :: s)) /\ forall c, is_digit c = true -> digit_next (c :: s)).
  { intros s. split; [|split].
    - intros H. apply digit_next_spec in H as (c & r & ? & _). easy.
    - intros c D H. apply digit_next_spec in H as (d & r & Q & D'). injection Q as -> ->. now rewrite D in D'.
    - intros c D. apply digit_next_spec. eauto. }
  induction s as [|c s IH]; intros w ds r.
  - cbn [span_digits]. split.
    + intros H. injection H as <- <-. split; [easy|]. split; [easy|]. destruct (Z []) as [Z0 _].
      destruct w as [k|]; cbn; [split; [lia|easy]|easy].
    + intros (H & _ & _). symmetry in H. apply app_eq_nil in H as [-> ->]. easy.
  - cbn [span_digits]. destruct (Z s) as (Z0 & Z1 & Z2). destruct w as [[|k]|].
    + split.
      * intros H. injection H as <- <-. split; [easy|]. split; [easy|]. cbn. lia.
      * intros (H & _ & A). destruct ds; [cbn in H; now subst r|]. cbn in A. lia.
    + destruct (is_digit c) eqn:D.
      * cbn [option_map pred]. destruct (span_digits (Some k) s) as [a b] eqn:Q. apply IH in Q as (Q1 & Q2 & Q3). split.
        -- intros H. injection H as <- <-. split; [cbn; now rewrite Q1|]. split; [cbn [forallb]; now rewrite D, Q2|]. cbn in *. split; [lia|].
           intros L. apply Q3. lia.
        -- intros (H & F & A). destruct ds as [|x ds].
           ++ cbn in H. subst r. exfalso. destruct A as [_ A]. apply A; [cbn; lia|now apply Z2].
           ++ cbn [app] in H. injection H as <- H. cbn [forallb] in F. apply andb_true_iff in F as [_ F].
              assert (X : span_digits (Some k) s = (ds, r)) by (apply IH; split; [easy|split; [easy|cbn in *; split; [lia|intros L; apply A; lia]]]).
              assert (X' : span_digits (Some k) s = (a, b)) by (apply IH; easy). rewrite X in X'. now injection X' as -> ->.
      * split.
        -- intros H. injection H as <- <-. split; [easy|]. split; [easy|]. cbn. split; [lia|]. intros _. now apply Z1.
        -- intros (H & F & A). destruct ds as [|x ds]; [cbn in H; now subst r|]. injection H as <- H. cbn [forallb] in F. rewrite D in F. easy.
    + destruct (is_digit c) eqn:D.
      * cbn [option_map pred]. destruct (span_digits None s) as [a b] eqn:Q. apply IH in Q as (Q1 & Q2 & Q3). split.
        -- intros H. injection H as <- <-. split; [cbn; now rewrite Q1|]. split; [cbn [forallb]; now rewrite D, Q2|]. exact Q3.
        -- intros (H & F & A). destruct ds as [|x ds].
           ++ cbn in H. subst r. exfalso. apply A. now apply Z2.
           ++ cbn [app] in H. injection H as <- H. cbn [forallb] in F. apply andb_true_iff in F as [_ F].
              assert (X : span_digits None s = (ds, r)) by (apply IH; split; [easy|split; [easy|exact A]]).
              assert (X' : span_digits None s = (a, b)) by (apply IH; easy). rewrite X in X'. now injection X' as -> ->.
      * split.
        -- intros H. injection H as <- <-. split; [easy|]. split; [easy|]. now apply Z1.
        -- intros (H & F & A). destruct ds as [|x ds]; [cbn in H; now subst r|]. injection H as <- H. cbn [forallb] in F. rewrite D in F. easy.
Qed.
Lemma scan_number_spec : forall w s n r, scan_number w s = Some (n, r) <-> (n <= I64_MAX)%N /\ exists ds, s = ds ++ r /\ number_text w n ds r.
Proof.
  intros w s n r. unfold scan_number, number_text. destruct (span_digits w s) as [ds r'] eqn:Q. pose proof Q as Q'.
  apply span_digits_spec in Q as (E & F & A).
  assert (X : forall ds0, s = ds0 ++ r /\ decimal ds0 n /\ at_most w ds0 r -> ds0 = ds /\ r = r').
  { intros ds0 (E0 & D0 & A0). apply decimal_spec in D0 as (_ & F0 & _).
    assert (S : span_digits w s = (ds0, r)) by now apply span_digits_spec. rewrite Q' in S. now injection S as -> ->. }
  split.
  - intros H. destruct ds as [|c ds]; [easy|]. destruct (dec_val (c :: ds) <=? I64_MAX)%N eqn:L; [|easy]. injection H as <- <-.
    split; [lia|]. exists (c :: ds). split; [easy|]. split; [|easy]. apply decimal_spec. easy.
  - intros (L & ds0 & H). destruct (X ds0) as [-> ->]; [tauto|]. destruct H as (_ & D & _). apply decimal_spec in D as (N0 & _ & <-).
    destruct ds as [|c ds]; [easy|]. now replace (dec_val (c :: ds) <=? I64_MAX)%N with true by lia.
Qed.
Lemma trim_start_spec : forall s, exists w r, s = w ++ r /\ spaces w /\ trim_start s = r /\ forall c x, r = c :: x -> is_ws c = false.
Proof.
  induction s as [|c s (w & r & -> & W & T & N)]; [exists [], []; repeat split; [constructor|easy]|].
  cbn [trim_start]. destruct (is_ws c) eqn:Q.
  - exists (c :: w), r. split; [easy|]. split; [now constructor|]. easy.
  - exists [], (c :: w ++ r). split; [easy|]. split; [constructor|]. split; [easy|]. intros d x E. now injection E as <- _.
Qed.
Lemma trim_spaces : forall w r, spaces w -> (forall c x, r = c :: x -> is_ws c = false) -> trim_start (w ++ r) = r.
Proof.
  intros w r W N. induction W as [|c w C W IH]; cbn [app trim_start].
  - destruct r as [|c r]; [easy|]. cbn. now rewrite (N c r).
  - now rewrite C.
Qed.
Lemma decimal_head : forall ds n, decimal ds n -> exists c x, ds = c :: x /\ is_digit c = true.
Proof.
  intros ds n D. apply decimal_spec in D as (N0 & F & _). destruct ds as [|c x]; [easy|]. exists c, x. split; [easy|]. now apply andb_true_iff in F.
Qed.
Lemma digit_not_ws : forall c, is_digit c = true -> is_ws c = false /\ c <> PLUS /\ c <> DASH.
Proof.
  intros c D. apply is_digit_range in D. unfold is_ws, in_range, PLUS, DASH. repeat apply conj; lia.
Qed.

Lemma scan_year_spec : forall s y r, scan_year s = Some (y, r) <->
  (-2147483648 <= y <= 2147483647)%Z /\ exists a, s = a ++ r /\ year_text y a r.
Proof.
  intros s y r. unfold scan_year. split.
  - intros H. destruct (trim_start_spec s) as (w & t & -> & W & T & N). rewrite T in H. clear T.
    destruct t as [|c t]; [easy|]. destruct (c =? DASH)%N eqn:C1; [|destruct (c =? PLUS)%N eqn:C2].
    + apply N.eqb_eq in C1. subst c. destruct (scan_number None t) as [[n x]|] eqn:S; cbn [option_map] in H; [|easy].
      destruct (_ && _)%bool eqn:L in H; [|easy]. injection H as <- <-. apply scan_number_spec in S as (_ & ds & -> & D).
      split; [lia|]. exists (w ++ DASH :: ds). split; [now rewrite <- app_assoc|now constructor].
    + apply N.eqb_eq in C2. subst c. destruct (scan_number None t) as [[n x]|] eqn:S; cbn [option_map] in H; [|easy].
      destruct (_ && _)%bool eqn:L in H; [|easy]. injection H as <- <-. apply scan_number_spec in S as (_ & ds & -> & D).
      split; [lia|]. exists (w ++ PLUS :: ds). split; [now rewrite <- app_assoc|now constructor].
    + destruct (scan_number (Some 4) (c :: t)) as [[n x]|] eqn:S; cbn [option_map] in H; [|easy].
      destruct (_ && _)%bool eqn:L in H; [|easy]. injection H as <- <-. apply scan_number_spec in S as (_ & ds & E & D). rewrite E.
      split; [lia|]. exists (w ++ ds). split; [now rewrite <- app_assoc|now constructor].
  - intros (L & a & -> & Y). assert (R : ((-2147483648 <=? y) && (y <=? 2147483647))%Z = true) by lia.
    destruct Y as [w n ds rest W D|w n ds rest W D|w n ds rest W D]; rewrite <- app_assoc.
    + destruct D as [D A]. destruct (decimal_head _ _ D) as (c & x & -> & C). destruct (digit_not_ws c C) as (C1 & C2 & C3).
      rewrite trim_spaces; [|easy|intros d z E; now injection E as <- _].
      cbn [app]. replace (c =? DASH)%N with false by lia. replace (c =? PLUS)%N with false by lia.
      assert (S : scan_number (Some 4) (c :: x ++ rest) = Some (n, rest)).
      { apply scan_number_spec. split; [unfold I64_MAX; lia|]. now exists (c :: x). }
      rewrite S. cbn [option_map]. now rewrite R.
    + rewrite trim_spaces; [|easy|intros d z E; now injection E as <- _]. cbn [app].
      change (43 =? DASH)%N with false. change (43 =? PLUS)%N with true. cbv iota.
      assert (S : scan_number None (ds ++ rest) = Some (n, rest)).
      { apply scan_number_spec. split; [unfold I64_MAX; lia|]. now exists ds. }
      rewrite S. cbn [option_map]. now rewrite R.
    + rewrite trim_spaces; [|easy|intros d z E; now injection E as <- _]. cbn [app].
      change (DASH =? DASH)%N with true. cbv iota.
      assert (S : scan_number None (ds ++ rest) = Some (n, rest)).
      { apply scan_number_spec. split; [unfold I64_MAX; lia|]. now exists ds. }
      rewrite S. cbn [option_map]. now rewrite R.
Qed.
Lemma scan_two_spec : forall lo hi s n r, (hi < 100)%N -> scan_two lo hi s = Some (n, r) <-> (lo <= n <= hi)%N /\ exists a, s = a ++ r /\ two_text n a r.
Proof.
  intros lo hi s n r Hi. unfold scan_two. split.
  - intros H. destruct (trim_start_spec s) as (w & t & -> & W & T & N). rewrite T in H.
    destruct (scan_number (Some 2) t) as [[k x]|] eqn:S; [|easy]. destruct (in_range lo hi k) eqn:R; [|easy]. injection H as <- <-.
    apply scan_number_spec in S as (_ & ds & -> & D). unfold in_range in R. split; [lia|]. exists (w ++ ds). split; [now rewrite <- app_assoc|]. now exists w, ds.
  - intros (L & a & -> & w & ds & -> & W & D). rewrite <- app_assoc.
    destruct (decimal_head _ _ (proj1 D)) as (c & x & -> & C). destruct (digit_not_ws c C) as (C1 & _).
    rewrite trim_spaces; [|easy|intros d z E; now injection E as <- _].
    assert (S : scan_number (Some 2) ((c :: x) ++ r) = Some (n, r)).
    { apply scan_number_spec. split; [unfold I64_MAX; lia|]. now exists (c :: x). }
    rewrite S. unfold in_range. now replace ((lo <=? n) && (n <=? hi))%N with true by lia.
Qed.
Lemma from_ymd_spec : forall y m d x, from_ymd_opt y m d = Some x <-> x = mk_date y m d /\ real_date x /\ (-262143 <= y <= 262142)%Z.
Proof.
  intros y m d x. unfold from_ymd_opt. split.
  - intros H. destruct (_ && _)%bool eqn:Q in H; [|easy]. injection H as <-. split; [easy|]. split; [|lia].
    apply real_date_spec. cbn [year month day]. apply andb_true_iff in Q as [Q1 Q2]. apply andb_true_iff in Q1 as [_ Q1]. now split.
  - intros (-> & R & L). apply real_date_spec in R as [R1 R2]. cbn [year month day] in *. rewrite R1, R2.
    now replace ((-262143 <=? y) && (y <=? 262142))%Z with true by lia.
Qed.
Lemma scan_date_spec : forall s d r, (exists y m dd, scan_ymd s = Some (y, m, dd, r) /\ from_ymd_opt y m dd = Some d) <-> exists a, s = a ++ r /\ date_text d a r.
Proof.
  intros s d r. split.
  - intros (y & m & dd & H & F). apply from_ymd_spec in F as (-> & R & L). unfold scan_ymd in H.
    destruct (scan_year s) as [[y' s1]|] eqn:S1; [|easy]. destruct (scan_two 1 12 s1) as [[m' s2]|] eqn:S2; [|easy].
    destruct (scan_two 1 31 s2) as [[d' s3]|] eqn:S3; [|easy]. injection H as -> -> -> ->.
    apply scan_year_spec in S1 as (_ & a & -> & A). apply scan_two_spec in S2 as (_ & b & -> & B); [|easy]. apply scan_two_spec in S3 as (_ & c & -> & C); [|easy].
    exists (a ++ b ++ c). split; [now rewrite <- !app_assoc|]. now exists a, b, c.
  - intros (x & -> & a & b & c & -> & A & B & C & R & L). exists (year d), (month d), (day d). rewrite <- !app_assoc. split.
    + unfold scan_ymd. assert (S1 : scan_year (a ++ b ++ c ++ r) = Some (year d, b ++ c ++ r)).
      { apply scan_year_spec. split; [lia|]. now exists a. }
      rewrite S1. pose proof R as R'. apply real_date_spec in R' as [R1 R2]. unfold in_range in R1, R2.
      assert (S2 : scan_two 1 12 (b ++ c ++ r) = Some (month d, c ++ r)).
      { apply scan_two_spec; [easy|]. split; [lia|]. now exists b. }
      rewrite S2. assert (S3 : scan_two 1 31 (c ++ r) = Some (day d, r)).
      { apply scan_two_spec; [easy|]. split; [|now exists c]. assert (days_in_month (year d) (month d) <= 31)%N; [|lia].
        unfold days_in_month. repeat match goal with |- context [if ?b then _ else _] => destruct b end; lia. }
      now rewrite S3.
    + apply from_ymd_spec. split; [now destruct d|easy].
Qed.
Lemma scan_hms_spec : forall s t r, scan_hms s = Some (t, r) <-> exists a, s = a ++ r /\ time_text t a r.
Proof.
  intros s t r. unfold scan_hms. split.
  - intros H. destruct (scan_two 0 23 s) as [[h s1]|] eqn:S1; [|easy]. destruct (scan_two 0 59 s1) as [[m s2]|] eqn:S2; [|easy].
    destruct (scan_two 0 60 s2) as [[d s3]|] eqn:S3; [|easy]. injection H as <- <-.
    apply scan_two_spec in S1 as (L1 & a & -> & A); [|easy]. apply scan_two_spec in S2 as (L2 & b & -> & B); [|easy]. apply scan_two_spec in S3 as (L3 & c & -> & C); [|easy].
    exists (a ++ b ++ c). split; [now rewrite <- !app_assoc|]. exists a, b, c, h, m, d. repeat apply conj; try easy; lia.
  - intros (x & -> & a & b & c & h & m & d & -> & A & B & C & L1 & L2 & L3 & ->). rewrite <- !app_assoc.
    assert (S1 : scan_two 0 23 (a ++ b ++ c ++ r) = Some (h, b ++ c ++ r)) by (apply scan_two_spec; [easy|]; split; [lia|]; now exists a).
    assert (S2 : scan_two 0 59 (b ++ c ++ r) = Some (m, c ++ r)) by (apply scan_two_spec; [easy|]; split; [lia|]; now exists b).
    assert (S3 : scan_two 0 60 (c ++ r) = Some (d, r)) by (apply scan_two_spec; [easy|]; split; [lia|]; now exists c).
    now rewrite S1, S2, S3.
Qed.
Lemma scan_dt_spec : forall s d r, scan_dt s = Some (d, r) <-> exists a, s = a ++ r /\ dt_text d a r.
Proof.
  intros s d r. unfold scan_dt. split.
  - intros H. destruct (scan_ymd s) as [[[[y m] dd] s1]|] eqn:S1; [|easy]. destruct (scan_lit 84 s1) as [s2|] eqn:S2; [|easy].
    destruct (scan_hms s2) as [[t s3]|] eqn:S3; [|easy]. destruct (from_ymd_opt y m dd) as [x|] eqn:F; [|easy]. injection H as <- <-.
    destruct s1 as [|c s1]; [easy|]. cbn in S2. destruct (c =? 84)%N eqn:C; [|easy]. injection S2 as ->. apply N.eqb_eq in C. subst c.
    apply scan_hms_spec in S3 as (b & -> & B).
    assert (D : exists a, s = a ++ 84%N :: b ++ s3 /\ date_text x a (84%N :: b ++ s3)) by (apply scan_date_spec; eauto).
    destruct D as (a & -> & A). exists (a ++ lit "T" ++ b). split; [now rewrite <- !app_assoc|]. now exists a, b.
  - intros (x & -> & a & b & -> & A & B).
    assert (D : exists y m dd, scan_ymd (a ++ lit "T" ++ b ++ r) = Some (y, m, dd, lit "T" ++ b ++ r) /\ from_ymd_opt y m dd = Some (date_of d))
      by (apply scan_date_spec; eauto).
    destruct D as (y & m & dd & S & F). rewrite <- !app_assoc, S. change (lit "T" ++ ?z) with (84%N :: z). cbn [scan_lit]. change (84 =? 84)%N with true. cbv iota.
    assert (T : scan_hms (b ++ r) = Some (time_of d, r)) by (apply scan_hms_spec; eauto). rewrite T, F. now destruct d.
Qed.
Lemma parse_date_spec : forall s d, parse_date s = Some d <-> date_text d s [].
Proof.
  intros s d. unfold parse_date. split.
  - intros H. destruct (scan_ymd s) as [[[[y m] dd] [|c r]]|] eqn:S; try easy.
    assert (X : exists a, s = a ++ [] /\ date_text d a []) by (apply scan_date_spec; eauto). destruct X as (a & -> & A). now rewrite app_nil_r.
  - intros H. assert (X : exists y m dd, scan_ymd s = Some (y, m, dd, []) /\ from_ymd_opt y m dd = Some d).
    { apply scan_date_spec. exists s. now rewrite app_nil_r. }
    destruct X as (y & m & dd & -> & F). exact F.
Qed.
Lemma parse_dt_spec : forall s d, parse_dt s = Some d <-> dt_text d s [].
Proof.
  intros s d. unfold parse_dt. split.
  - intros H. destruct (scan_dt s) as [[x [|c r]]|] eqn:S; try easy. injection H as ->. apply scan_dt_spec in S as (a & -> & A). now rewrite app_nil_r.
  - intros H. assert (S : scan_dt s = Some (d, [])) by (apply scan_dt_spec; exists s; now rewrite app_nil_r). now rewrite S.
Qed.
Lemma parse_dt_z_spec : forall s d, parse_dt_z s = Some d <-> exists a, s = a ++ lit "Z" /\ dt_text d a (lit "Z").
Proof.
  intros s d. unfold parse_dt_z. split.
  - intros H. destruct (scan_dt s) as [[x [|c [|c' r]]]|] eqn:S; try easy. destruct (c =? 90)%N eqn:C; [|easy]. apply N.eqb_eq in C. subst c. injection H as ->.
    apply scan_dt_spec in S as (a & -> & A). now exists a.
  - intros H. apply scan_dt_spec in H. rewrite H. reflexivity.
Qed.
Lemma dt_text_one : forall s, (exists d, parse_dt s = Some d) -> parse_dt_z s = None.
Proof. intros s [d H]. unfold parse_dt, parse_dt_z in *. destruct (scan_dt s) as [[x [|c r]]|]; try easy. Qed.

Lemma is_date_spec : forall {U : Unicode} p, is_date p <-> prop_value_type p = Some Date.
Proof.
  intros U p. unfold is_date, prop_value_type.
  assert (B : by_name (p_key p) <> Some Date).
  { unfold by_name. destruct (existsb _ _); [easy|]. intros H. apply assoc_lit_in in H as (n & I & _). unfold by_name_table in I. cbn in I.
    repeat (destruct I as [I|I]; [discriminate I|]). easy. }
  assert (V : forall v, vt_from_str v = Some Date -> v = lit "DATE").
  { intros v H. apply assoc_lit_in in H as (n & I & ->). cbn [In] in I. repeat (destruct I as [I|I]; [(discriminate I) || (now injection I as <-)|]). easy. }
  split.
  - intros ->. reflexivity.
  - intros H. destruct (map_get _ _) as [v|]; [|easy]. f_equal. apply V. now destruct (vt_from_str v).
Qed.
Lemma dpt_value_spec : forall {U : Unicode} p x, dpt_from_property p = Some x <-> dpt_value p x.
Proof.
  intros U p x. unfold dpt_from_property. split.
  - intros H. assert (D : is_date p \/ ~ is_date p) by (rewrite is_date_spec; destruct (prop_value_type p) as [[]|]; auto; right; easy).
    destruct D as [D|D].
    + pose proof D as D'. apply is_date_spec in D'. rewrite D' in H. destruct (parse_date (p_val p)) as [d|] eqn:Q; [|easy]. injection H as <-. constructor; [easy|now apply parse_date_spec].
    + assert (H' : option_map DT (cal_dt_from_property p) = Some x).
      { rewrite is_date_spec in D. destruct (prop_value_type p) as [[]|]; try exact H. now destruct D. }
      clear H. unfold cal_dt_from_property in H'. destruct (map_get (lit "TZID") (p_params p)) as [z|] eqn:Z.
      * destruct (parse_dt (p_val p)) as [d|] eqn:Q; [|easy]. injection H' as <-. apply parse_dt_spec in Q. now constructor.
      * destruct (parse_dt (p_val p)) as [d|] eqn:Q; [injection H' as <-; apply parse_dt_spec in Q; now constructor|].
        unfold cal_dt_from_str, parse_utc_date_time, parse_naive_date_time in H'. rewrite Q in H'.
        destruct (parse_dt_z (p_val p)) as [d|] eqn:Q2; [|easy]. injection H' as <-. apply parse_dt_z_spec in Q2 as (s & E & T). now apply (dv_utc p d s).
  - intros H. destruct H as [d D T|d z D Z T|d D Z T|d s D Z E T].
    + apply is_date_spec in D. rewrite D. apply parse_date_spec in T. now rewrite T.
    + assert (X : option_map DT (cal_dt_from_property p) = Some (DT (WithTimezone d z))).
      { unfold cal_dt_from_property. rewrite Z. apply parse_dt_spec in T. now rewrite T. }
      rewrite is_date_spec in D. destruct (prop_value_type p) as [[]|]; try exact X. now destruct D.
    + assert (X : option_map DT (cal_dt_from_property p) = Some (DT (Floating d))).
      { unfold cal_dt_from_property. rewrite Z. apply parse_dt_spec in T. now rewrite T. }
      rewrite is_date_spec in D. destruct (prop_value_type p) as [[]|]; try exact X. now destruct D.
    + assert (X : option_map DT (cal_dt_from_property p) = Some (DT (Utc d))).
      { unfold cal_dt_from_property. rewrite Z. assert (Q : parse_dt_z (p_val p) = Some d) by (apply parse_dt_z_spec; eauto).
        destruct (parse_dt (p_val p)) as [x|] eqn:Q2; [rewrite (dt_text_one (p_val p)) in Q; [easy|eauto]|].
        unfold cal_dt_from_str, parse_utc_date_time. now rewrite Q. }
      rewrite is_date_spec in D. destruct (prop_value_type p) as [[]|]; try exact X. now destruct D.
Qed.

Lemma pdpt_value_spec : forall p x, dpt_try_from p = Some x <-> pdpt_value p x.
Proof.
  intros p x. destruct (parse_exclusive (pr_val p)) as [X1 X2]. unfold dpt_try_from. split.
  - intros H. destruct (parse_dt_z (pr_val p)) as [d|] eqn:Q1.
    { injection H as <-. apply parse_dt_z_spec in Q1 as (s & E & T). now apply (pv_utc p d s). }
    destruct (parse_date (pr_val p)) as [d|] eqn:Q2; [injection H as <-; apply parse_date_spec in Q2; now constructor|].
    destruct (parse_dt (pr_val p)) as [d|] eqn:Q3; [|easy]. apply parse_dt_spec in Q3.
    destruct (find _ (pr_params p)) as [q|] eqn:F.
    + apply find_first_of in F. destruct (pp_val q) as [z|] eqn:V; [|easy]. injection H as <-. now apply (pv_zone p d q z).
    + injection H as <-. apply pv_local; [|easy]. apply Forall_forall. intros q I K. apply (find_none _ _ F) in I. rewrite K, str_eqb_refl in I. easy.
  - intros H. destruct H as [d T|d q z F V T|d F T|d s E T].
    + apply parse_date_spec in T. destruct (X1 d T) as [-> _]. now rewrite T.
    + apply parse_dt_spec in T. destruct (X2 d T) as [-> ->]. apply find_first_of in F. now rewrite T, F, V.
    + apply parse_dt_spec in T. destruct (X2 d T) as [-> ->]. rewrite T. destruct (find _ (pr_params p)) as [q|] eqn:G; [|easy].
      apply find_some in G as [I K]. apply str_eqb_eq in K. rewrite Forall_forall in F. now destruct (F q I).
    + assert (Q : parse_dt_z (pr_val p) = Some d) by (apply parse_dt_z_spec; eauto). now rewrite Q.
Qed.
Lemma cal_dt_str_spec : forall s x, cal_dt_from_str s = Some x <->
  (exists d, x = Floating d /\ dt_text d s []) \/ (exists d a, x = Utc d /\ s = a ++ lit "Z" /\ dt_text d a (lit "Z")).
Proof.
  intros s x. unfold cal_dt_from_str, parse_utc_date_time, parse_naive_date_time. destruct (parse_exclusive s) as [_ X]. split.
  - intros H. destruct (parse_dt_z s) as [d|] eqn:Q.
    + injection H as <-. apply parse_dt_z_spec in Q as (a & E & T). right. now exists d, a.
    + destruct (parse_dt s) as [d|] eqn:Q2; [|easy]. injection H as <-. apply parse_dt_spec in Q2. left. now exists d.
  - intros [(d & -> & T)|(d & a & -> & E & T)].
    + apply parse_dt_spec in T. destruct (X d T) as [-> _]. now rewrite T.
    + assert (Q : parse_dt_z s = Some d) by (apply parse_dt_z_spec; eauto). now rewrite Q.
Qed.
