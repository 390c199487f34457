(** Proofs of C60-C66. *)
From Verif Require Import Str StrFacts Spec ValueTypes Property Chrono DateTime Component Alarm Calendar Access
  SpecBuild SpecDate SpecCal SpecAccess BuildProofs DateProofs SetterProofs CalProofs.
From Coq Require Import ZifyBool ZifyNat ZifyN.

(** ** Time zones *)
Lemma same_date : forall a b : ndate, {a = b} + {a <> b}.
Proof. decide equality; try apply N.eq_dec; apply Z.eq_dec. Qed.
Lemma same_dt : forall a b : ndt, {a = b} + {a <> b}.
Proof. decide equality; [decide equality; apply N.eq_dec|apply same_date]. Qed.
Section Zones.
  Context {T : TzDb}.
  Hypothesis O : tz_ok T.
  Lemma instant_kept : forall z u v, real_dt u -> try_into_utc (from_date_time u z) = Some v -> v = u.
  Proof.
    intros z u v R H. unfold try_into_utc, from_date_time in H. rewrite (names_ok _ O) in H. apply (single_ok _ O) in H as (_ & _ & H).
    symmetry. now apply H.
  Qed.
  Lemma instant_unique : forall z u, real_dt u -> (try_into_utc (from_date_time u z) = Some u <-> ~ ambiguous z u).
  Proof.
    intros z u R. unfold try_into_utc, from_date_time. rewrite (names_ok _ O), (single_ok _ O). split.
    - intros (_ & _ & H) (v & R' & N & E). now apply N, H.
    - intros A. split; [easy|]. split; [easy|]. intros v R' E. destruct (same_dt v u) as [|N]; [easy|]. elim A. now exists v.
  Qed.
  Lemma zone_names : forall d s, match cal_dt_try_from d s with
    | Some c => exists n, c = WithTimezone d n /\ tz_parse n = tz_parse s /\ tz_parse s <> None
    | None => tz_parse s = None end.
  Proof.
    intros d s. unfold cal_dt_try_from. destruct (tz_parse s) as [z|] eqn:E; [|easy]. exists (tz_name z).
    split; [easy|]. now rewrite (names_ok _ O).
  Qed.
End Zones.
Lemma ymd_hm : forall (T : TzDb) y mo d h mi z c, from_ymd_hm_tzid y mo d h mi z = Some c
  <-> real_dt (mk_dt (mk_date y mo d) (mk_time h mi 0 0)) /\ (-262143 <= y <= 262142)%Z
      /\ c = WithTimezone (mk_dt (mk_date y mo d) (mk_time h mi 0 0)) (tz_name z).
Proof.
  intros T y mo d h mi z c. unfold from_ymd_hm_tzid. destruct (from_ymd_opt y mo d) as [x|] eqn:E.
  - apply from_ymd_spec in E as (-> & E & Y). unfold and_hm_opt. destruct ((h <? 24) && (mi <? 60))%N eqn:F; cbn [option_map].
    + split; [intros H; injection H as <-|intros (_ & _ & ->); easy]. split; [|easy]. split; [easy|]. unfold real_time. cbn. lia.
    + split; [easy|]. intros ([_ R] & _). unfold real_time in R. cbn in R. lia.
  - split; [easy|]. intros ([R _] & Y & _). exfalso. assert (from_ymd_opt y mo d = Some (mk_date y mo d)) by (apply from_ymd_spec; auto). congruence.
Qed.

(** ** Triggers *)
Lemma trigger_written : forall t, trigger_says (trigger_to_property t)
  match t with
  | TDuration d (Some r) => Off_after d r
  | TDuration d None => Off_duration d
  | TDateTime c => Off_at c
  end.
Proof.
  intros [d [[]|]|c]; rewrite trigger_to_prop; cbn [trigger_prop]; try (constructor; apply dur_text_denotes).
  apply Says_at; cbn [p_key p_val p_params]; try easy.
  - now destruct c as [d|d|d z].
  - intros k N. destruct c as [d|d|d z]; cbn [dpt_params app map_get];
      (destruct (str_eqb k (lit "VALUE")) eqn:E; [now apply str_eqb_eq in E|]); try easy.
Qed.

(** ** Independent calls *)
Lemma built_ext : forall i j, built i -> built j -> (forall k, map_get k (i_props i) = map_get k (i_props j)) ->
  (forall k, map_get k (i_multi i) = map_get k (i_multi j)) -> i_comps i = i_comps j -> i = j.
Proof.
  intros [p m c] [p' m' c'] B B' P M C. destruct B as [B1 B2 B3 B4], B' as [B1' B2' B3' B4']. cbn [i_props i_multi i_comps] in *. subst c'.
  f_equal; now apply ksorted_ext.
Qed.
Lemma calls_ext : forall i l l', built i -> (forall k, last_with k (flat_map sets l) = last_with k (flat_map sets l')) ->
  (forall k, filter (fun q => str_eqb (p_key q) k) (flat_map multis l) = filter (fun q => str_eqb (p_key q) k) (flat_map multis l')) ->
  flat_map subs l = flat_map subs l' -> run_calls l i = run_calls l' i.
Proof.
  intros i l l' B S M C. apply built_ext; try now apply built_calls.
  - intros k. now rewrite !get_calls, S.
  - intros k. rewrite !multi_calls. now rewrite M.
  - now rewrite !comps_calls, C.
Qed.
Lemma calls_determined : forall l l', run_calls l inner_new = run_calls l' inner_new <->
  (forall k, last_with k (flat_map sets l) = last_with k (flat_map sets l'))
  /\ (forall k, filter (fun q => str_eqb (p_key q) k) (flat_map multis l) = filter (fun q => str_eqb (p_key q) k) (flat_map multis l'))
  /\ flat_map subs l = flat_map subs l'.
Proof.
  intros l l'. split.
  - intros E. split; [|split].
    + intros k. pose proof (get_calls l inner_new k) as A. pose proof (get_calls l' inner_new k) as B. rewrite E in A. rewrite A in B. cbn in B.
      now destruct (last_with k (flat_map sets l)), (last_with k (flat_map sets l')).
    + intros k. pose proof (multi_order l k) as A. pose proof (multi_order l' k) as B. rewrite E in A. rewrite A in B.
      destruct (filter _ (flat_map multis l)), (filter _ (flat_map multis l')); congruence.
    + pose proof (comps_calls l inner_new) as A. pose proof (comps_calls l' inner_new) as B. rewrite E in A. rewrite A in B. exact B.
  - intros (S & M & C). apply calls_ext; auto. apply built_new.
Qed.
Lemma last_with_key : forall k l p, last_with k l = Some p -> In p l /\ p_key p = k.
Proof.
  intros k l p H. unfold last_with in H. apply find_some in H as [I E]. apply str_eqb_eq in E. split; [now apply in_rev|easy].
Qed.
Lemma last_with_some : forall k l, (exists q, In q l /\ p_key q = k) -> exists p, last_with k l = Some p.
Proof.
  intros k l (q & I & E). unfold last_with. destruct (find _ (rev l)) as [p|] eqn:F; [eauto|].
  apply in_rev in I. apply (find_none _ _ F) in I. rewrite E, str_eqb_refl in I. discriminate.
Qed.
Lemma filter_none : forall k l, (forall p : property, In p l -> p_key p <> k) -> filter (fun q => str_eqb (p_key q) k) l = [].
Proof.
  intros k. induction l as [|p l IH]; intros H; [easy|]. cbn [filter]. destruct (str_eqb (p_key p) k) eqn:E.
  - apply str_eqb_eq in E. exfalso. apply (H p); [now left|easy].
  - apply IH. intros q I. apply H. now right.
Qed.
Lemma calls_commute : forall i a b x y, built i -> independent a b ->
  run_calls (x ++ a :: b :: y) i = run_calls (x ++ b :: a :: y) i.
Proof.
  intros i a b x y B (S & M & C). apply calls_ext; try easy.
  - intros k. rewrite !flat_map_app. cbn [flat_map]. rewrite !last_with_app.
    destruct (last_with k (flat_map sets y)); [easy|].
    destruct (last_with k (sets b)) as [q|] eqn:E, (last_with k (sets a)) as [p|] eqn:F; try easy.
    apply last_with_key in E as [E1 E2], F as [F1 F2]. exfalso. apply (S p q F1 E1). congruence.
  - intros k. rewrite !flat_map_app. cbn [flat_map]. rewrite !filter_app. f_equal. rewrite !app_assoc. f_equal.
    destruct (filter (fun q => str_eqb (p_key q) k) (multis a)) as [|p l] eqn:E; [now rewrite app_nil_r|].
    rewrite (filter_none k (multis b)); [now rewrite app_nil_r|]. intros q I Q.
    assert (P : In p (filter (fun q => str_eqb (p_key q) k) (multis a))) by (rewrite E; now left).
    apply filter_In in P as [P1 P2]. apply str_eqb_eq in P2. apply (M p q P1 I). congruence.
  - rewrite !flat_map_app. cbn [flat_map]. f_equal. rewrite !app_assoc. f_equal. destruct C as [-> | ->]; now rewrite ?app_nil_r.
Qed.
Lemma calls_superseded : forall i a x y, built i -> superseded a y -> run_calls (x ++ a :: y) i = run_calls (x ++ y) i.
Proof.
  intros i a x y B (M & C & S). apply calls_ext; try easy.
  - intros k. rewrite !flat_map_app. cbn [flat_map]. rewrite !last_with_app.
    destruct (last_with k (flat_map sets y)) eqn:E; [easy|]. destruct (last_with k (sets a)) as [p|] eqn:F; [|easy].
    apply last_with_key in F as [F1 F2]. destruct (S p F1) as (q & Q1 & Q2). destruct (last_with_some k (flat_map sets y)) as [r R]; [|congruence].
    exists q. split; [easy|congruence].
  - intros k. rewrite !flat_map_app. cbn [flat_map]. now rewrite M.
  - rewrite !flat_map_app. cbn [flat_map]. now rewrite C.
Qed.

(** ** Parameters *)
Lemma map_get_perm : forall V (m m' : list (str * V)), Permutation m m' -> NoDup (map fst m) -> forall k, map_get k m = map_get k m'.
Proof.
  intros V m m' P. induction P as [|[k v] m m' P IH|[k v] [k' v'] m|m m' m'' P IH P' IH']; intros N a.
  - easy.
  - cbn [map_get]. inversion N; subst. now rewrite IH.
  - cbn [map_get]. inversion N as [|? ? N1 N2]; subst. cbn [map fst] in N1.
    destruct (str_eqb a k') eqn:E; [|easy]. destruct (str_eqb a k) eqn:F; [|easy].
    apply str_eqb_eq in E, F. subst. elim N1. now left.
  - rewrite IH by easy. apply IH'. eapply Permutation_NoDup; [|exact N]. now apply Permutation_map.
Qed.
Lemma hm_insert_comm : forall V k (v : V) k' v' m, k <> k' -> Permutation (hm_insert k v (hm_insert k' v' m)) (hm_insert k' v' (hm_insert k v m)).
Proof.
  intros V k v k' v' m N. assert (A : str_eqb k k' = false) by (apply str_eqb_neq; easy). assert (B : str_eqb k' k = false) by (apply str_eqb_neq; congruence).
  induction m as [|[a b] m IH]; cbn [hm_insert].
  - rewrite A, B. constructor.
  - destruct (str_eqb k' a) eqn:E; cbn [hm_insert].
    + apply str_eqb_eq in E as <-. rewrite A. cbn [hm_insert]. now rewrite str_eqb_refl.
    + destruct (str_eqb k a) eqn:F; cbn [hm_insert]; rewrite E; [easy|]. now constructor.
Qed.
Lemma reordered_reads {U : Unicode} {I : Iso8601} : forall p q, reordered p q -> NoDup (map fst (p_params p)) ->
  prop_value_type p = prop_value_type q /\ value_text p = value_text q /\ dpt_from_property p = dpt_from_property q
  /\ cal_dt_from_property p = cal_dt_from_property q /\ trigger_from_property p = trigger_from_property q
  /\ forall T k (f : str -> option T), get_param_as p k f = get_param_as q k f.
Proof.
  intros [k v ps] [k' v' ps'] (K & V & P) N. cbn [p_key p_val p_params] in *. subst k' v'. pose proof (map_get_perm _ _ _ P N) as G.
  assert (T : prop_value_type (mk_property k v ps) = prop_value_type (mk_property k v ps')).
  { unfold prop_value_type. cbn [p_key p_params]. now rewrite G. }
  assert (C : cal_dt_from_property (mk_property k v ps) = cal_dt_from_property (mk_property k v ps')).
  { unfold cal_dt_from_property. cbn [p_val p_params]. now rewrite G. }
  split; [easy|]. split; [unfold value_text; now rewrite T|]. split; [unfold dpt_from_property; now rewrite T, C|]. split; [easy|]. split.
  - unfold trigger_from_property. cbn [p_key p_val p_params]. now rewrite !G.
  - intros A a f. unfold get_param_as. cbn [p_params]. now rewrite G.
Qed.
Lemma params_commute : forall p a b, fst a <> fst b -> reordered (append_parameter (append_parameter p a) b) (append_parameter (append_parameter p b) a).
Proof.
  intros p [a x] [b y] N. split; [easy|]. split; [easy|]. cbn [append_parameter p_params fst snd] in *. apply hm_insert_comm. congruence.
Qed.
Lemma append_parameter_NoDup : forall p a, NoDup (map fst (p_params p)) -> NoDup (map fst (p_params (append_parameter p a))).
Proof. intros p [k v]. cbn [append_parameter p_params fst snd]. apply hm_insert_keys. Qed.
Lemma params_NoDup : forall k v l, NoDup (map fst (p_params (fold_left append_parameter l (prop_new k v)))).
Proof.
  intros k v l. assert (H : forall p, NoDup (map fst (p_params p)) -> NoDup (map fst (p_params (fold_left append_parameter l p)))).
  { induction l as [|a l IH]; intros p N; [easy|]. cbn [fold_left]. now apply IH, append_parameter_NoDup. }
  apply H. constructor.
Qed.
Lemma append_parameter_get : forall p k v q, map_get q (p_params (append_parameter p (k, v))) = if str_eqb q k then Some v else map_get q (p_params p).
Proof. intros p k v q. cbn [append_parameter p_params fst snd]. destruct (str_eqb q k) eqn:E.
  - apply str_eqb_eq in E as ->. apply map_get_hm_same.
  - apply map_get_hm_other. intros ->. now rewrite str_eqb_refl in E. Qed.

(** ** Zoned times in a component *)
Lemma zoned_stored {U : Unicode} {T : TzDb} : tz_ok T -> forall i u z, real_dt u -> four_digits (date_of (tz_local z u)) ->
  whole_seconds (time_of (tz_local z u)) ->
  let x := DT (from_date_time u z) in
  get_start (starts i x) = Some x /\ get_end (ends i x) = Some x /\ get_due (due i x) = Some x.
Proof.
  intros O i u z R F W x. assert (R' : real_dpt x) by now apply (local_ok _ O).
  pose proof (dpt_setters_round U i x R') as (A & B & C). repeat split; [apply A|apply B|apply C]; now split.
Qed.
