(** C60-C63: zoned times, triggers, the order of builder calls and of parameters. *)
From Verif Require Import Str Spec ValueTypes Property Chrono DateTime Component Alarm Calendar Access
  SpecBuild SpecDate SpecCal SpecAccess StrFacts BuildProofs DateProofs AccessProofs Properties_Build.
From Coq Require Import ZifyBool ZifyNat ZifyN.

(** ** C60 *)
(** A database with a zone where the clock is put back once. *)
Definition twice (d : ndt) : bool := (year (date_of d) =? 2024)%Z && (month (date_of d) =? 10)%N && (day (date_of d) =? 27)%N.
(** On that day it is half past midnight twice. *)
Definition put_back (d : ndt) : ndt :=
  if twice d && (hour (time_of d) =? 1)%N then mk_dt (date_of d) (mk_time 0 (minute (time_of d)) (second (time_of d)) (nano (time_of d))) else d.
Definition real_dtb (d : ndt) : bool :=
  (in_range 1 12 (month (date_of d)) && in_range 1 (days_in_month (year (date_of d)) (month (date_of d))) (day (date_of d))
   && (hour (time_of d) <? 24) && (minute (time_of d) <? 60) && (second (time_of d) <? 60)
   && ((nano (time_of d) <? 1000000000) || (second (time_of d) =? 59) && (nano (time_of d) <? 2000000000)))%N.
Lemma real_dtb_ok : forall d, real_dtb d = true <-> real_dt d.
Proof.
  intros d. unfold real_dtb, real_dt, real_time. rewrite real_date_spec.
  destruct (in_range 1 12 _), (in_range 1 _ _); cbn [andb]; intuition (try easy); lia.
Qed.
Local Instance some_tz : TzDb := {|
  tz := bool;
  tz_name z := if z then lit "Odd" else lit "UTC";
  tz_parse s := if str_eqb s (lit "Odd") then Some true else if str_eqb s (lit "UTC") then Some false else None;
  tz_local z u := if z then put_back u else u;
  tz_single z d := if real_dtb d && negb (z && twice d && (hour (time_of d) <? 2)%N) then Some d else None |}.
Lemma put_back_real : forall u, real_dt (put_back u) <-> real_dt u.
Proof.
  intros u. unfold put_back. destruct (twice u && (hour (time_of u) =? 1)%N) eqn:E; [|easy].
  unfold real_dt, real_time. cbn [date_of time_of hour minute second nano]. intuition lia.
Qed.
Lemma put_back_twice : forall u, twice (put_back u) = twice u.
Proof. intros u. unfold put_back. now destruct (twice u && (hour (time_of u) =? 1)%N). Qed.
Lemma some_tz_ok : tz_ok some_tz.
Proof.
  constructor.
  - now intros [].
  - intros [] u R; [now apply put_back_real|easy].
  - intros z d u. cbn [tz_single tz_local some_tz]. destruct z; cbn [andb].
    + destruct (real_dtb d) eqn:R; cbn [andb].
      2:{ split; [easy|]. intros (R' & <- & _). apply put_back_real, real_dtb_ok in R'. congruence. }
      destruct (twice d && (hour (time_of d) <? 2)%N) eqn:E; cbn [negb].
      * split; [easy|]. intros (R' & <- & U). exfalso. rewrite put_back_twice in E.
        assert (T : twice u = true) by (now destruct (twice u)). rewrite T in E. unfold put_back in E. rewrite T in E. cbn [andb] in E.
        set (v h := mk_dt (date_of u) (mk_time h (minute (time_of u)) (second (time_of u)) (nano (time_of u)))).
        assert (V : forall h, twice (v h) = true) by easy.
        assert (P0 : put_back (v 0%N) = v 0%N) by (unfold put_back; now rewrite V).
        assert (P1 : put_back (v 1%N) = v 0%N) by (unfold put_back; now rewrite V).
        assert (RV : forall h, (h < 2)%N -> real_dt (v h)).
        { intros h H. destruct R' as [R1 R2]. split; [easy|]. unfold real_time in *. cbn [v time_of hour minute second nano]. lia. }
        assert (PU : put_back u = v 0%N).
        { unfold put_back. rewrite T. cbn [andb]. destruct (hour (time_of u) =? 1)%N eqn:H1; [easy|].
          destruct u as [x [h m s n]]. cbn [time_of hour] in *. assert (h = 0)%N as -> by lia. reflexivity. }
        pose proof (U (v 0%N) (RV 0%N ltac:(lia)) ltac:(congruence)) as U0.
        pose proof (U (v 1%N) (RV 1%N ltac:(lia)) ltac:(congruence)) as U1.
        rewrite <- U0 in U1. discriminate U1.
      * assert (K : forall v, put_back v = d -> v = d).
        { intros v <-. rewrite put_back_twice in E. unfold put_back in *. destruct (twice v); [|easy]. cbn [andb] in *.
          destruct (hour (time_of v) =? 1)%N; [|easy]. cbn [time_of hour] in E. discriminate E. }
        assert (D : put_back d = d). { unfold put_back. destruct (twice d); [|easy]. cbn [andb] in *. destruct (hour (time_of d) =? 1)%N eqn:H; [lia|easy]. }
        split.
        -- intros H. injection H as <-. split; [now apply real_dtb_ok|]. split; [easy|]. intros v _ Q. now apply K.
        -- intros (_ & Q & _). now rewrite (K u Q).
    + rewrite andb_true_r. destruct (real_dtb d) eqn:R; [apply real_dtb_ok in R|]; split; try easy.
      * intros H. injection H as <-. easy.
      * now intros (_ & -> & _).
      * intros (R' & <- & _). apply real_dtb_ok in R'. congruence.
Qed.
(** Refuted: a local time that occurs twice is not converted back to its instant. *)
Theorem C60_refuted : exists (T : TzDb) z u, tz_ok T /\ real_dt u /\ try_into_utc (from_date_time u z) = None.
Proof.
  exists some_tz, true, (mk_dt (mk_date 2024 10 27) (mk_time 1 30 0 0)).
  split; [apply some_tz_ok|]. split; [now apply real_dtb_ok|now vm_compute].
Qed.
Print Assumptions C60_refuted.
(** True exactly of the other times; a floating time has no instant, a UTC time is its own. *)
Theorem C60_unambiguous_partial : forall T : TzDb, tz_ok T -> forall z u, real_dt u ->
  (try_into_utc (from_date_time u z) = Some u <-> ~ ambiguous z u).
Proof. intros T O. apply (instant_unique O). Qed.
Print Assumptions C60_unambiguous_partial.
(** And never is a wrong instant returned. *)
Theorem C60_never_wrong : forall T : TzDb, tz_ok T -> forall z u v, real_dt u -> try_into_utc (from_date_time u z) = Some v -> v = u.
Proof. intros T O. apply (instant_kept O). Qed.
Print Assumptions C60_never_wrong.
Theorem C60_other_forms : forall (T : TzDb) d, try_into_utc (Floating d) = None /\ try_into_utc (Utc d) = Some d.
Proof. easy. Qed.
Print Assumptions C60_other_forms.
(** Stored in an event or a todo, the time is read back with its zone, hence with its instant. *)
Theorem C60_stored_partial : forall (U : Unicode) (T : TzDb), tz_ok T -> forall i u z, real_dt u ->
  four_digits (date_of (tz_local z u)) -> whole_seconds (time_of (tz_local z u)) ->
  let x := DT (from_date_time u z) in
  get_start (starts i x) = Some x /\ get_end (ends i x) = Some x /\ get_due (due i x) = Some x.
Proof. intros U T. exact zoned_stored. Qed.
Print Assumptions C60_stored_partial.
(** A zone given by name must be known, and is stored under a name of the same zone. *)
Theorem C60_named : forall T : TzDb, tz_ok T -> forall d s, match cal_dt_try_from d s with
  | Some c => exists n, c = WithTimezone d n /\ tz_parse n = tz_parse s /\ tz_parse s <> None
  | None => tz_parse s = None
  end.
Proof. intros T O. apply (zone_names O). Qed.
Print Assumptions C60_named.
(** Numbers that are no date or no time of day are refused. *)
Theorem C60_ymd_hm : forall (T : TzDb) y mo d h mi z c, from_ymd_hm_tzid y mo d h mi z = Some c
  <-> real_dt (mk_dt (mk_date y mo d) (mk_time h mi 0 0)) /\ (-262143 <= y <= 262142)%Z
      /\ c = WithTimezone (mk_dt (mk_date y mo d) (mk_time h mi 0 0)) (tz_name z).
Proof. exact ymd_hm. Qed.
Print Assumptions C60_ymd_hm.

Example C60_example : tz_ok some_tz
  /\ (let u := mk_dt (mk_date 2024 10 27) (mk_time 2 30 0 0) in
      real_dt u /\ try_into_utc (from_date_time u true) = Some u)
  /\ from_ymd_hm_tzid 2023 2 29 1 1 true = None
  /\ cal_dt_try_from (mk_dt (mk_date 2024 2 29) (mk_time 1 1 1 0)) (lit "Mars") = None.
Proof. split; [apply some_tz_ok|]. split; [split; [now apply real_dtb_ok|now vm_compute]|]. now vm_compute. Qed.

(** ** C61 *)
(** Each way to make a trigger, and what the accessors tell of it. *)
Theorem C61_made : forall d c,
  let tells t a b r := as_duration t = a /\ as_date_time t = b /\ trigger_related t = r in
  tells (after_start d) (Some d) None (Some RStart) /\ tells (before_start d) (Some (- d)%Z) None (Some RStart)
  /\ tells (after_end d) (Some d) None (Some REnd) /\ tells (before_end d) (Some (- d)%Z) None (Some REnd)
  /\ tells (trigger_from_duration d) (Some d) None None
  /\ (forall r, tells (trigger_from_pair (d, r)) (Some d) None (Some r))
  /\ tells (trigger_from_dt (fun x => x) c) None (Some c) None.
Proof. easy. Qed.
Print Assumptions C61_made.
(** The accessors tell everything. *)
Theorem C61_determined : forall t u, as_duration t = as_duration u -> as_date_time t = as_date_time u ->
  trigger_related t = trigger_related u -> t = u.
Proof. intros [d r|c] [d' r'|c']; cbn; congruence. Qed.
Print Assumptions C61_determined.
(** The property written says so: the duration's text denotes the duration, RELATED names the end it counts
    from, and a time carries VALUE=DATE-TIME. *)
Theorem C61_written : forall t, trigger_says (trigger_to_property t)
  match t with
  | TDuration d (Some r) => Off_after d r
  | TDuration d None => Off_duration d
  | TDateTime c => Off_at c
  end.
Proof. exact trigger_written. Qed.
Print Assumptions C61_written.

Example C61_example :
  p_val (trigger_to_property (before_end 5400000000000%Z)) = lit "-PT5400S"
  /\ p_params (trigger_to_property (before_end 5400000000000%Z)) = [(lit "RELATED", lit "END")].
Proof. now vm_compute. Qed.

(** ** C62 *)
(** What a sequence of calls builds is determined by the last value set under each name, by the values
    appended under each name in order, and by the components appended. *)
Theorem C62_determined : forall l l', run_calls l inner_new = run_calls l' inner_new <->
  (forall k, last_with k (flat_map sets l) = last_with k (flat_map sets l'))
  /\ (forall k, filter (fun q => str_eqb (p_key q) k) (flat_map multis l) = filter (fun q => str_eqb (p_key q) k) (flat_map multis l'))
  /\ flat_map subs l = flat_map subs l'.
Proof. exact calls_determined. Qed.
Print Assumptions C62_determined.
(** Hence calls that have nothing to do with each other may be exchanged, *)
Theorem C62_commute : forall a b x y, independent a b ->
  run_calls (x ++ a :: b :: y) inner_new = run_calls (x ++ b :: a :: y) inner_new.
Proof. intros a b x y. apply calls_commute, built_new. Qed.
Print Assumptions C62_commute.
(** and a call whose settings are all overridden later may be left out. *)
Theorem C62_superseded : forall a x y, superseded a y -> run_calls (x ++ a :: y) inner_new = run_calls (x ++ y) inner_new.
Proof. intros a x y. apply calls_superseded, built_new. Qed.
Print Assumptions C62_superseded.

Example C62_example :
  independent (KSummary (lit "a")) (KAllDay (mk_date 2024 1 1))
  /\ superseded (KStarts (DDate (mk_date 2024 1 1))) [KPriority 3; KAllDay (mk_date 2024 1 1)]
  /\ ~ independent (KAddMulti (lit "ATTENDEE") (lit "a")) (KAddMulti (lit "ATTENDEE") (lit "b")).
Proof.
  split; [|split].
  - split; [|split; [easy|now left]]. intros p q [<-|[]] [<-|[<-|[]]]; vm_compute; discriminate.
  - split; [easy|]. split; [easy|]. intros p [<-|[]]. eexists. split; [right; left; reflexivity|now vm_compute].
  - intros (_ & M & _). specialize (M _ _ (or_introl eq_refl) (or_introl eq_refl)). now elim M.
Qed.

(** ** C63 *)
(** Setting a parameter replaces its value and leaves the others; no parameter is there twice. *)
Theorem C63_set : forall p k v q, map_get q (p_params (append_parameter p (k, v))) = if str_eqb q k then Some v else map_get q (p_params p).
Proof. exact append_parameter_get. Qed.
Print Assumptions C63_set.
Theorem C63_once : forall k v l, NoDup (map fst (p_params (fold_left append_parameter l (prop_new k v)))).
Proof. exact params_NoDup. Qed.
Print Assumptions C63_once.
(** Parameters of different names may be set in any order: only their order can differ, *)
Theorem C63_commute : forall p a b, fst a <> fst b ->
  reordered (append_parameter (append_parameter p a) b) (append_parameter (append_parameter p b) a).
Proof. exact params_commute. Qed.
Print Assumptions C63_commute.
(** and nothing that is read from a property depends on it. *)
Theorem C63_order : forall (U : Unicode) (I : Iso8601) p q, reordered p q -> NoDup (map fst (p_params p)) ->
  prop_value_type p = prop_value_type q /\ value_text p = value_text q /\ dpt_from_property p = dpt_from_property q
  /\ cal_dt_from_property p = cal_dt_from_property q /\ trigger_from_property p = trigger_from_property q
  /\ forall T k (f : str -> option T), get_param_as p k f = get_param_as q k f.
Proof. intros U I. exact reordered_reads. Qed.
Print Assumptions C63_order.

Local Existing Instance some_unicode.
Example C63_example :
  let p l := mk_property (lit "DTSTART") (lit "20240101T000000") l in
  let a := (lit "TZID", lit "Europe/Berlin") in let b := (lit "X-A", lit "1") in
  reordered (p [a; b]) (p [b; a]) /\ NoDup (map fst [a; b])
  /\ dpt_from_property (p [b; a]) = Some (DT (WithTimezone (mk_dt (mk_date 2024 1 1) (mk_time 0 0 0 0)) (lit "Europe/Berlin"))).
Proof.
  cbn zeta. split; [split; [easy|split; [easy|apply perm_swap]]|]. split; [|now vm_compute].
  cbn [map fst]. constructor; [|constructor; [easy|constructor]]. intros [E|[]]. vm_compute in E. discriminate E.
Qed.
