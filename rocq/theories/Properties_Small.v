(** C72: values read from any trigger property or calendar; small conversions. *)
From Verif Require Import Str StrFacts Fold ValueTypes Property Chrono DateTime Component Alarm Calendar Access
  SpecDate SpecBuild SpecCal SpecScan SpecSmall BuildProofs DateProofs CalProofs ScanProofs Properties_Build.
From Coq Require Import ZifyBool ZifyNat ZifyN.

Lemma iso_simple_spec : forall s n, iso_simple s = Some n <-> plain_duration s n.
Proof.
  assert (P : forall ds, forallb is_digit ds = true -> firstn 3 (ds ++ [48; 48; 48]%N) = firstn 3 ds ++ repeat 48%N (3 - length ds)).
  { intros [|a [|b [|c ds]]] _; reflexivity. }
  assert (Z : forall ds k, dec_val (ds ++ repeat 48%N k) = (dec_val ds * 10 ^ N.of_nat k)%N).
  { intros ds k. rewrite dec_val_app, repeat_length. assert (E : dec_val (repeat 48%N k) = 0%N); [|lia].
    rewrite <- (app_nil_r (repeat 48%N k)). now rewrite dec_val_zeros. }
  intros s n. unfold iso_simple. destruct (str_eqb s (lit "P0D")) eqn:S0; [apply str_eqb_eq in S0; subst s|apply str_eqb_neq in S0].
  { split; [intros H; injection H as <-; constructor|]. intros H. inversion H; subst; easy. }
  destruct (starts_with (lit "PT") s) eqn:S1.
  2:{ split; [easy|]. intros H. inversion H; subst; easy. }
  apply starts_with_spec in S1 as (x & ->). change (skipn 2 (lit "PT" ++ x)) with x. destruct (span_digits None x) as [ds r] eqn:S2.
  apply span_digits_spec in S2 as (-> & D & N2). split.
  - intros H. destruct ds as [|c ds]; [easy|]. destruct (_ <=? U32_MAX)%N eqn:L; [|easy]. unfold U32_MAX in L.
    assert (D1 : decimal (c :: ds) (dec_val (c :: ds))) by now apply decimal_spec. revert D1 L H. generalize (c :: ds). intros w D1 L H.
    destruct (str_eqb r (lit "S")) eqn:R; [apply str_eqb_eq in R; subst r; injection H as <-; apply pd_whole; [easy|lia]|].
    destruct r as [|p r]; [easy|]. destruct (N.eqb_spec p 46) as [->|]; [|easy]. destruct (span_digits None r) as [f r2] eqn:S3.
    apply span_digits_spec in S3 as (-> & F & _). destruct f as [|a f]; [easy|]. assert (Fn : a :: f <> []) by easy. revert F Fn H. generalize (a :: f). intros v F Fn H.
    destruct (str_eqb r2 (lit "S")) eqn:R2; [|easy]. apply str_eqb_eq in R2. subst r2. injection H as <-. unfold frac_millis, GIGA. rewrite (P v F), Z.
    destruct (Nat.leb_spec (length v) 3) as [Lv|Lv].
    + rewrite firstn_all2 by lia. apply (pd_short w (dec_val w) v (dec_val v) (3 - length v)); [easy|lia| |lia]. now apply decimal_spec.
    + replace (3 - length v) with 0 by lia. change (10 ^ N.of_nat 0)%N with 1%N. rewrite N.mul_1_r.
      rewrite <- (firstn_skipn 3 v) at 1. change (46%N :: (firstn 3 v ++ skipn 3 v) ++ lit "S") with (lit "." ++ (firstn 3 v ++ skipn 3 v) ++ lit "S"). rewrite <- (app_assoc (firstn 3 v)).
      rewrite <- (firstn_skipn 3 v), forallb_app in F. apply andb_prop in F as [F1 F2].
      apply (pd_long w (dec_val w) (firstn 3 v) (dec_val (firstn 3 v)) (skipn 3 v) (dec_val (skipn 3 v))); [easy|lia| |rewrite firstn_length; lia|].
      * apply decimal_spec. split; [|easy]. destruct v; [easy|discriminate].
      * apply decimal_spec. split; [|easy]. intros E. apply (f_equal (@length _)) in E. rewrite skipn_length in E. cbn [length] in E. lia.
  - assert (U : forall w n r', decimal w n -> ~ digit_next r' -> w ++ r' = ds ++ r -> w = ds /\ r' = r).
    { intros w m r' W N3 E. apply decimal_spec in W as (_ & W & _).
      assert (A : span_digits None (w ++ r') = (w, r')) by now apply span_digits_spec. rewrite E in A.
      assert (B : span_digits None (ds ++ r) = (ds, r)) by now apply span_digits_spec. rewrite B in A. injection A as -> ->. easy. }
    assert (NS : forall c z, is_digit c = false -> ~ digit_next (c :: z)).
    { intros c z Q (d & z' & L & E). injection E as -> _. unfold is_digit, in_range in Q. lia. }
    intros H. inversion H as [E|w m W L E|w m f k j W L F K E|w m f k g y W L F K G E]; subst.
    + apply U with (n := m) in E as [-> <-]; [|easy|now apply NS]. apply decimal_spec in W as (Wn & _ & <-). destruct ds; [easy|].
      unfold U32_MAX. now replace (_ <=? _)%N with true by lia.
    + apply U with (n := m) in E as [-> <-]; [|easy|now apply NS]. apply decimal_spec in W as (Wn & _ & <-). destruct ds as [|c ds]; [easy|].
      unfold U32_MAX. replace (_ <=? _)%N with true by lia. cbn [app lit str_eqb]. 
      assert (B : span_digits None (f ++ lit "S") = (f, lit "S")). { apply span_digits_spec. apply decimal_spec in F. split; [easy|]. split; [easy|now apply NS]. }
      change (str_eqb (lit "." ++ f ++ lit "S") (lit "S")) with false. change (lit "." ++ f ++ lit "S") with (46%N :: f ++ lit "S"). cbv iota.
      change (46 =? 46)%N with true. cbv iota. rewrite B. apply decimal_spec in F as (Fn & F & <-). destruct f as [|a f]; [easy|]. change (str_eqb (lit "S") (lit "S")) with true. cbv iota.
      unfold frac_millis. rewrite (P _ F), Z. revert K. generalize (a :: f). intros v K. rewrite firstn_all2 by lia. replace (3 - length v) with j by lia. reflexivity.
    + apply U with (n := m) in E as [-> <-]; [|easy|now apply NS]. apply decimal_spec in W as (Wn & _ & <-). destruct ds as [|c ds]; [easy|].
      unfold U32_MAX. replace (_ <=? _)%N with true by lia. cbn [app lit str_eqb]. 
      assert (B : span_digits None ((f ++ g) ++ lit "S") = (f ++ g, lit "S")). { apply span_digits_spec. apply decimal_spec in F, G. rewrite forallb_app. split; [easy|]. split; [lia|now apply NS]. }
      rewrite <- app_assoc in B.
      change (str_eqb (lit "." ++ f ++ g ++ lit "S") (lit "S")) with false. change (lit "." ++ f ++ g ++ lit "S") with (46%N :: f ++ g ++ lit "S"). cbv iota.
      change (46 =? 46)%N with true. cbv iota. rewrite B. apply decimal_spec in F as (Fn & F & <-). apply decimal_spec in G as (Gn & G & _). destruct f as [|a f]; [easy|]. cbn [app]. change (str_eqb (lit "S") (lit "S")) with true. cbv iota.
      unfold frac_millis. change (a :: f ++ g) with ((a :: f) ++ g). rewrite P by (rewrite forallb_app; lia). rewrite Z, app_length, firstn_app, K. replace (3 - (3 + length g)) with 0 by lia.
      rewrite firstn_all2 by lia. change (3 - 3) with 0. cbn [firstn]. rewrite app_nil_r. change (10 ^ N.of_nat 0)%N with 1%N. rewrite (N.mul_1_r (dec_val (a :: f))). reflexivity.
Qed.
Lemma iso_parse_spec : forall {I : Iso8601} s n, iso_parse s = Some n <-> iso_value s n.
Proof.
  intros I s n. unfold iso_parse, iso_value. destruct (starts_with (lit "P") s) eqn:S.
  - apply starts_with_spec in S. destruct (iso_simple s) as [m|] eqn:Q.
    + apply iso_simple_spec in Q. split.
      * intros H. injection H as <-. now left.
      * intros [H|(_ & N & _)]; [|now destruct (N m)]. apply iso_simple_spec in H, Q. congruence.
    + split; [intros H; right; split; [easy|]; split; [|easy]|intros [H|(_ & _ & H)]; [|easy]].
      * intros m H2. apply iso_simple_spec in H2. congruence.
      * apply iso_simple_spec in H. congruence.
  - split; [easy|]. intros [H|((r & ->) & _)]; [|discriminate S]. inversion H; subst; discriminate S.
Qed.
Lemma iso_parse_none : forall {I : Iso8601} s, iso_parse s = None <-> forall n, ~ iso_value s n.
Proof.
  intros I s. split.
  - intros H n V. apply iso_parse_spec in V. congruence.
  - intros H. destruct (iso_parse s) as [n|] eqn:Q; [|easy]. apply iso_parse_spec in Q. now destruct (H n).
Qed.
Lemma parse_duration_spec : forall {I : Iso8601} s d, parse_duration s = Some d <-> reads_duration s d.
Proof.
  intros I s d. unfold parse_duration, reads_duration, dur_from_std, I64_MAX. split.
  - destruct (iso_parse s) as [n|] eqn:Q; [|easy]. apply iso_parse_spec in Q. destruct (_ <=? _)%N eqn:L; [|easy]. intros H. injection H as <-. exists n. split; [easy|]. split; [lia|easy].
  - intros (n & V & L & ->). apply iso_parse_spec in V. rewrite V. now replace (_ <=? _)%N with true by lia.
Qed.
Lemma related_spec : forall p r, related_value p r <-> match map_get (lit "RELATED") (p_params p) with Some s => related_from_str s | None => None end = r.
Proof.
  intros p r. unfold related_value, related_from_str. cbn [assoc_lit]. destruct (map_get (lit "RELATED") (p_params p)) as [s|].
  - destruct (str_eqb s (lit "START")) eqn:Q1; [apply str_eqb_eq in Q1|apply str_eqb_neq in Q1].
    + subst s. split; [intros [[_ ->]|[[H _]|(H & _ & _)]]; [easy|discriminate H|now destruct H]|intros <-; now left].
    + destruct (str_eqb s (lit "END")) eqn:Q2; [apply str_eqb_eq in Q2|apply str_eqb_neq in Q2].
      * subst s. split; [intros [[H _]|[[_ ->]|(_ & H & _)]]; [discriminate H|easy|now destruct H]|intros <-; right; now left].
      * split; [intros [[H _]|[[H _]|(_ & _ & ->)]]; [injection H as H; now destruct Q1|injection H as H; now destruct Q2|easy]|].
        intros <-. right. right. repeat split; intros H; injection H as H; [now apply Q1|now apply Q2].
  - split; [intros [[H _]|[[H _]|(_ & _ & ->)]]; easy|]. intros <-. right. now right.
Qed.
Lemma trigger_value_spec : forall {I : Iso8601} p t, trigger_from_property p = Some t <-> trigger_value p t.
Proof.
  intros I p t. unfold trigger_from_property. split.
  - destruct (str_eqb (p_key p) (lit "TRIGGER")) eqn:K; [|easy]. apply str_eqb_eq in K.
    assert (D : (map_get (lit "VALUE") (p_params p) = None \/ map_get (lit "VALUE") (p_params p) = Some (lit "DURATION")) ->
      option_map (fun d => TDuration d match map_get (lit "RELATED") (p_params p) with Some s => related_from_str s | None => None end) (parse_duration (p_val p)) = Some t ->
      trigger_value p t).
    { intros V H. destruct (parse_duration (p_val p)) as [d|] eqn:Q; [|easy]. injection H as <-. apply parse_duration_spec in Q.
      apply tv_duration; try easy. now apply related_spec. }
    intros H. destruct (map_get (lit "VALUE") (p_params p)) as [v|] eqn:V; [|now apply D; [left|]].
    destruct (str_eqb v (lit "DATE-TIME")) eqn:Q1.
    + apply str_eqb_eq in Q1. subst v. destruct (cal_dt_from_str (p_val p)) as [c|] eqn:Q; [|easy]. injection H as <-.
      apply cal_dt_str_spec in Q as [(d & -> & T)|(d & a & -> & E & T)]; [now apply tv_local|now apply (tv_utc p d a)].
    + destruct (str_eqb v (lit "DURATION")) eqn:Q2; [|easy]. apply str_eqb_eq in Q2. subst v. apply D; [now right|exact H].
  - intros H. destruct H as [d K V T|d s K V E T|d r K V R T]; rewrite K, str_eqb_refl.
    + rewrite V, str_eqb_refl. assert (Q : cal_dt_from_str (p_val p) = Some (Floating d)) by (apply cal_dt_str_spec; left; eauto). now rewrite Q.
    + rewrite V, str_eqb_refl. assert (Q : cal_dt_from_str (p_val p) = Some (Utc d)) by (apply cal_dt_str_spec; right; eauto). now rewrite Q.
    + apply related_spec in R. apply parse_duration_spec in T. rewrite R, T.
      destruct V as [->| ->]; [easy|]. change (str_eqb (lit "DURATION") (lit "DATE-TIME")) with false. now rewrite str_eqb_refl.
Qed.
Lemma first_value_spec : forall k c v, cal_property_value c k = Some v <-> first_value k (c_props c) v.
Proof.
  intros k [ps cs] v. unfold cal_property_value. cbn [c_props]. induction ps as [|p ps IH]; cbn [find].
  - split; [easy|]. intros H. inversion H.
  - destruct (str_eqb (p_key p) k) eqn:Q; [apply str_eqb_eq in Q|apply str_eqb_neq in Q].
    + split; [intros H; injection H as <-; now constructor|]. intros H. inversion H; subst; [easy|congruence].
    + rewrite IH. split; [intros H; now apply fv_later|]. intros H. inversion H; subst; [congruence|easy].
Qed.
Lemma ttl_value_spec : forall {I : Iso8601} c d, cal_get_ttl c = Some d <-> ttl_value (c_props c) d.
Proof.
  intros I c d. unfold cal_get_ttl.
  assert (P : forall n, dur_from_std n = Some d <-> (n <= 9223372036854775807 * 1000000)%N /\ d = Z.of_N n).
  { intros n. unfold dur_from_std, I64_MAX. destruct (_ <=? _)%N eqn:L; split.
    - intros H. injection H as <-. split; [lia|easy].
    - intros [_ ->]. easy.
    - easy.
    - intros [H _]. lia. }
  destruct (cal_property_value c (lit "REFRESH-INTERVAL")) as [s|] eqn:R; [apply first_value_spec in R|].
  - assert (O : forall t, first_value (lit "REFRESH-INTERVAL") (c_props c) t -> t = s).
    { intros t H. apply first_value_spec in H, R. rewrite R in H. now injection H as ->. }
    destruct (iso_parse s) as [n|] eqn:S; cbn [or_else].
    + rewrite P. split; [intros [L ->]; apply (tt_refresh _ s); [easy|exists n; split; [now apply iso_parse_spec|easy]]|].
      intros H. destruct H as [t d F (m & M%iso_parse_spec & L & ->)|t d F _ _].
      * apply O in F. subst t. rewrite S in M. now injection M as ->.
      * apply iso_parse_spec in S. now destruct (F s R n).
    + destruct (cal_property_value c (lit "X-PUBLISHED-TTL")) as [x|] eqn:X.
      * destruct (iso_parse x) as [n|] eqn:S'; cbn [or_else].
        -- rewrite P. split; [intros [L ->]; apply (tt_published _ x); [intros t F; apply O in F; subst t; now apply iso_parse_none|now apply first_value_spec|exists n; split; [now apply iso_parse_spec|easy]]|].
           intros H. destruct H as [t d F (m & M%iso_parse_spec & L & ->)|t d F G (m & M%iso_parse_spec & L & ->)]; [apply O in F; subst t; now rewrite S in M|].
           apply first_value_spec in G. rewrite X in G. injection G as <-. rewrite S' in M. now injection M as ->.
        -- split; [easy|]. intros H. destruct H as [t d F (m & M%iso_parse_spec & L & ->)|t d F G (m & M%iso_parse_spec & L & ->)]; [apply O in F; subst t; now rewrite S in M|].
           apply first_value_spec in G. rewrite X in G. injection G as <-. now rewrite S' in M.
      * cbn [or_else]. split; [easy|]. intros H. destruct H as [t d F (m & M%iso_parse_spec & L & ->)|t d F G (m & M%iso_parse_spec & L & ->)]; [apply O in F; subst t; now rewrite S in M|].
        apply first_value_spec in G. now rewrite X in G.
  - assert (O : forall t, ~ first_value (lit "REFRESH-INTERVAL") (c_props c) t) by (intros t H; apply first_value_spec in H; now rewrite R in H).
    cbn [or_else]. destruct (cal_property_value c (lit "X-PUBLISHED-TTL")) as [x|] eqn:X.
    + destruct (iso_parse x) as [n|] eqn:S'.
      * rewrite P. split; [intros [L ->]; apply (tt_published _ x); [intros t F; now apply O in F|now apply first_value_spec|exists n; split; [now apply iso_parse_spec|easy]]|].
        intros H. destruct H as [t d F (m & M%iso_parse_spec & L & ->)|t d F G (m & M%iso_parse_spec & L & ->)]; [now apply O in F|].
        apply first_value_spec in G. rewrite X in G. injection G as <-. rewrite S' in M. now injection M as ->.
      * split; [easy|]. intros H. destruct H as [t d F (m & M%iso_parse_spec & L & ->)|t d F G (m & M%iso_parse_spec & L & ->)]; [now apply O in F|].
        apply first_value_spec in G. rewrite X in G. injection G as <-. now rewrite S' in M.
    + split; [easy|]. intros H. destruct H as [t d F (m & M%iso_parse_spec & L & ->)|t d F G (m & M%iso_parse_spec & L & ->)]; [now apply O in F|].
      apply first_value_spec in G. now rewrite X in G.
Qed.
Lemma action_spec : forall s a, action_from_str s = a <-> action_named a s.
Proof.
  intros s a. unfold action_from_str. cbn [assoc_lit]. split.
  - intros <-. destruct (str_eqb s (lit "AUDIO")) eqn:Q1; [apply str_eqb_eq in Q1; subst; constructor|apply str_eqb_neq in Q1].
    destruct (str_eqb s (lit "EMAIL")) eqn:Q2; [apply str_eqb_eq in Q2; subst; constructor|apply str_eqb_neq in Q2].
    destruct (str_eqb s (lit "DISPLAY")) eqn:Q3; [apply str_eqb_eq in Q3; subst; constructor|apply str_eqb_neq in Q3]. now constructor.
  - intros H. destruct H as [| | |s N1 N2 N3]; try reflexivity. apply str_eqb_neq in N1, N2, N3. now rewrite N1, N2, N3.
Qed.

(** C72. The trigger read from any property, exactly. *)
Theorem C72_trigger : forall {I : Iso8601} p t, trigger_from_property p = Some t <-> trigger_value p t.
Proof. exact @trigger_value_spec. Qed.
Print Assumptions C72_trigger.
(** The time to live of any calendar. *)
Theorem C72_ttl : forall {I : Iso8601} c d, cal_get_ttl c = Some d <-> ttl_value (c_props c) d.
Proof. exact @ttl_value_spec. Qed.
Print Assumptions C72_ttl.
(** The durations read, exactly: those the crate writes itself by the description, any other P… text as the library has it. *)
Theorem C72_duration : forall {I : Iso8601} s,
  (forall n, iso_parse s = Some n <-> iso_value s n) /\ (forall d, parse_duration s = Some d <-> reads_duration s d).
Proof. intros I s. split; intros x; [apply iso_parse_spec|apply parse_duration_spec]. Qed.
Print Assumptions C72_duration.
(** Actions and their names. *)
Theorem C72_action : (forall s a, action_from_str s = a <-> action_named a s) /\ (forall a s, action_named a s -> action_text a = s
    /\ action_to_property a = text_prop "ACTION" s).
Proof. split; [exact action_spec|]. intros a s H. now destruct H. Qed.
Print Assumptions C72_action.
(** The property each native time is written as: UTC with Z, local without, dates as VALUE=DATE, zoned with the name of the zone. *)
Theorem C72_native : forall {Z0 : TzDb} k,
  (forall u, dpt_to_property (dpt_from_utc u) k = mk_property k (dpt_text (DT (Utc u))) [])
  /\ (forall d, dpt_to_property (dpt_from_naive d) k = mk_property k (dpt_text (DT (Floating d))) [])
  /\ (forall d, dpt_to_property (dpt_from_date d) k = mk_property k (dpt_text (DDate d)) [(lit "VALUE", lit "DATE")])
  /\ (forall d s x, dpt_try_from_pair d s = Some x <-> exists z, tz_parse s = Some z /\ x = DT (WithTimezone d (tz_name z)))
  /\ (forall d z, dpt_to_property (dpt_from_cal_dt (cal_dt_with_timezone d z)) k = mk_property k (dpt_text (DT (Floating d))) [(lit "TZID", tz_name z)]).
Proof.
  intros Z0 k. repeat split; try reflexivity.
  - unfold dpt_try_from_pair, cal_dt_try_from. intros H. destruct (tz_parse s) as [z|]; [|easy]. injection H as <-. now exists z.
  - intros (z & E & ->). unfold dpt_try_from_pair, cal_dt_try_from. now rewrite E.
Qed.
Print Assumptions C72_native.
(** A component is an event or a to-do exactly if it was made as one; its own text then is that of the contained value. *)
Theorem C72_parts : forall {U : Unicode} c i,
  (as_event c = Some i <-> c = CEvent i) /\ (as_todo c = Some i <-> c = CTodo i)
  /\ (as_event c = Some i -> forall e n, cc_write e c n = inner_write e (lit "VEVENT") i n)
  /\ (as_todo c = Some i -> forall e n, cc_write e c n = inner_write e (lit "VTODO") i n).
Proof. intros U [j|j|j|[k j]] i; cbn [as_event as_todo]; repeat split; intros H; try discriminate H; injection H as ->; reflexivity. Qed.
Print Assumptions C72_parts.
(** What is printed to standard output is the text, and one more line break. *)
Theorem C72_print : forall {U : Unicode} e c s,
  (cal_print e c = Ret s <-> exists t, cal_write e c = Ret t /\ s = t ++ [CR; LF])
  /\ (forall k i, inner_print e k i = Ret s <-> exists t n, inner_write e k i 0 = Ret (t, n) /\ s = t ++ [CR; LF]).
Proof.
  intros U e c s. split.
  - unfold cal_print. destruct (cal_write e c) as [t| |]; cbn [obind]; split; try easy.
    + intros H. injection H as <-. now exists t.
    + intros (x & H & ->). now injection H as ->.
    + intros (x & H & _). easy.
    + intros (x & H & _). easy.
  - intros k i. unfold inner_print. destruct (inner_write e k i 0) as [[t n]| |]; cbn [obind]; split; try easy.
    + intros H. injection H as <-. now exists t, n.
    + intros (x & m & H & ->). now injection H as -> ->.
    + intros (x & m & H & _). easy.
    + intros (x & m & H & _). easy.
Qed.
Print Assumptions C72_print.
(** The e-mail alarm has exactly these properties. *)
Theorem C72_email : forall desc t summ k, map_get k (i_props (alarm_email desc t summ)) =
  if str_eqb k (lit "ACTION") then Some (text_prop "ACTION" (lit "EMAIL"))
  else if str_eqb k (lit "TRIGGER") then Some (trigger_prop t)
  else if str_eqb k (lit "DESCRIPTION") then Some (text_prop "DESCRIPTION" desc)
  else if str_eqb k (lit "SUMMARY") then Some (text_prop "SUMMARY" summ) else None.
Proof.
  intros desc t summ k. unfold alarm_email. rewrite trigger_to_prop.
  assert (K : p_key (trigger_prop t) = lit "TRIGGER") by (now destruct t as [d [[]|]|[]]).
  unfold add_property, append_property. cbn [i_props inner_new prop_new p_key action_to_property action_text]. rewrite K.
  destruct (str_eqb k (lit "ACTION")) eqn:Q1.
  { apply str_eqb_eq in Q1. subst k. now rewrite 3!map_get_bt_other, map_get_bt_same by easy. }
  apply str_eqb_neq in Q1.
  destruct (str_eqb k (lit "TRIGGER")) eqn:Q2.
  { apply str_eqb_eq in Q2. subst k. now rewrite 2!map_get_bt_other, map_get_bt_same by easy. }
  apply str_eqb_neq in Q2.
  destruct (str_eqb k (lit "DESCRIPTION")) eqn:Q3.
  { apply str_eqb_eq in Q3. subst k. now rewrite map_get_bt_other, map_get_bt_same by easy. }
  apply str_eqb_neq in Q3.
  destruct (str_eqb k (lit "SUMMARY")) eqn:Q4.
  { apply str_eqb_eq in Q4. subst k. now rewrite map_get_bt_same. }
  apply str_eqb_neq in Q4. now rewrite !map_get_bt_other by (intros ->; easy).
Qed.
Print Assumptions C72_email.

Example C72_example : forall {I : Iso8601},
  let p := mk_property (lit "TRIGGER") (lit "PT90S") [(lit "RELATED", lit "END")] in
  let q := mk_property (lit "TRIGGER") (lit "20240229T120000Z") [(lit "VALUE", lit "DATE-TIME")] in
  let c := cal_ttl (cal_append_property cal_new (prop_new (lit "REFRESH-INTERVAL") (lit "1 hour"))) 90000000000%Z in
  trigger_value p (TDuration 90000000000%Z (Some REnd))
  /\ trigger_value q (TDateTime (Utc (mk_dt (mk_date 2024 2 29) (mk_time 12 0 0 0))))
  /\ ttl_value (c_props c) 90000000000%Z /\ action_named (ActionOther (lit "X-BEEP")) (lit "X-BEEP").
Proof.
  intros I p q c. split; [apply trigger_value_spec; reflexivity|]. split; [apply trigger_value_spec; reflexivity|].
  split; [apply ttl_value_spec; reflexivity|]. now constructor.
Qed.
Example C72_duration_example : forall {I : Iso8601},
  iso_value (lit "P0D") 0 /\ iso_value (lit "PT007S") 7000000000 /\ iso_value (lit "PT1.5S") 1500000000
  /\ iso_value (lit "PT1.23456S") 1234000000 /\ (forall n, ~ iso_value (lit "90 seconds") n).
Proof.
  intros I. split; [now apply C72_duration|]. split; [now apply C72_duration|]. split; [now apply C72_duration|].
  split; [now apply C72_duration|]. intros n H. apply C72_duration in H. discriminate H.
Qed.
