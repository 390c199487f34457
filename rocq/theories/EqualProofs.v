(** Equality. *)
From Verif Require Import Str StrFacts Property Chrono DateTime Component Alarm Calendar Nom Parser ZeroCopy Equal
  SpecBuild SpecDate SpecTree SpecText SpecConv SpecAccess SpecRound SpecAlike SpecCopy SpecFold SpecFail SpecMore SpecScan SpecGetters SpecEqual
  BuildProofs TreeProofs ConvProofs AccessProofs AlikeProofs FailProofs.
From Coq Require Import ZifyBool ZifyNat ZifyN.

(** ** Lists and maps *)

Lemma vec_eqb_all : forall A B (f : A -> B -> bool) l m, vec_eqb f l m = true <-> Forall2 (fun a b => f a b = true) l m.
Proof.
  intros A B f. unfold vec_eqb. induction l as [|a l IH]; intros [|b m]; cbn [length Nat.eqb zip_eqb andb]; split; intros H; try easy; try (now inversion H).
  - constructor; [lia|]. apply IH. lia.
  - inversion H as [|? ? ? ? E F]; subst. apply IH in F. lia.
Qed.
Lemma forall2_iff_in : forall A B (R S : A -> B -> Prop) l m, (forall x y, In x l -> In y m -> (R x y <-> S x y)) -> Forall2 R l m <-> Forall2 S l m.
Proof.
  intros A B R S. induction l as [|x l IH]; intros [|y m] H; split; intros F; inversion F; subst; constructor.
  - apply H; cbn; auto.
  - apply IH; [|easy]. intros; apply H; cbn; auto.
  - apply H; cbn; auto.
  - apply IH; [|easy]. intros; apply H; cbn; auto.
Qed.
Lemma vec_eqb_rel : forall A B (f : A -> B -> bool) (R : A -> B -> Prop) l m,
  (forall x y, In x l -> In y m -> (f x y = true <-> R x y)) -> vec_eqb f l m = true <-> Forall2 R l m.
Proof. intros A B f R l m H. rewrite vec_eqb_all. now apply forall2_iff_in. Qed.

Lemma hm_eqb_perm : forall a b : list (str * str), NoDup (map fst a) -> NoDup (map fst b) ->
  hm_eqb str_eqb a b = true <-> Permutation a b.
Proof.
  intros a b A B. unfold hm_eqb. rewrite andb_true_iff, forallb_forall, Nat.eqb_eq. split.
  - intros [L H]. apply NoDup_Permutation_bis; [now apply NoDup_map_inv with (f := fst)|lia|].
    intros [k v] I. specialize (H _ I). cbn in H. destruct (map_get k b) as [w|] eqn:G; [|easy]. apply str_eqb_eq in H as ->. now apply map_get_in in G.
  - intros P. split; [now apply Permutation_length|]. intros [k v] I. rewrite (nodup_get _ b k v B); [apply str_eqb_refl|].
    eapply Permutation_in; eauto.
Qed.
Lemma prop_eqb_same : forall p q, params_once p -> params_once q -> prop_eqb p q = true <-> reordered p q.
Proof.
  intros p q P Q. unfold prop_eqb, reordered. rewrite !andb_true_iff, !str_eqb_eq, hm_eqb_perm by easy. tauto.
Qed.

Lemma below_none : forall V k (m : list (str * V)), below k m -> map_get k m = None.
Proof.
  intros V k m B. apply map_get_none. intros I. apply in_map_iff in I as [[k' v'] [E' I]].
  cbn in E'. subst k'. unfold below in B. rewrite Forall_forall in B. apply B in I. cbn in I. now rewrite str_cmp_refl in I.
Qed.
Lemma ksorted_rel : forall V W (R : V -> W -> Prop) (a : list (str * V)) (b : list (str * W)), ksorted a -> ksorted b ->
  (Forall2 (fun x y => fst x = fst y /\ R (snd x) (snd y)) a b <-> forall k, opt_rel R (map_get k a) (map_get k b)).
Proof.
  intros V W R a b A B. split.
  - intros F k. induction F as [|[k1 v] [k2 w] a b [E H] _ IH]; [constructor|]. cbn [fst snd] in *. subst k2. cbn [map_get].
    destruct (str_eqb k k1); [now constructor|]. apply IH; [now inversion A|now inversion B].
  - revert b B. induction A as [|k v a Ba A IH]; intros b B H.
    + destruct b as [|[k w] b]; [constructor|]. specialize (H k). cbn [map_get] in H. rewrite str_eqb_refl in H. inversion H.
    + destruct b as [|[k2 w] b]; [specialize (H k); cbn [map_get] in H; rewrite str_eqb_refl in H; inversion H|].
      inversion B as [|? ? ? Bb B']; subst.
      assert (K : k = k2).
      { pose proof (H k) as H1. pose proof (H k2) as H2. cbn [map_get] in H1, H2. rewrite str_eqb_refl in H1, H2.
        destruct (str_eqb k k2) eqn:E; [now apply str_eqb_eq in E|]. exfalso. rewrite str_eqb_sym, E in H2.
        destruct (map_get k b) eqn:G1; [|inversion H1]. destruct (map_get k2 a) eqn:G2; [|inversion H2]. apply map_get_in in G1, G2.
        unfold below in *. rewrite Forall_forall in Ba, Bb. apply Bb in G1. apply Ba in G2. cbn in G1, G2.
        rewrite str_cmp_antisym, G1 in G2. easy. }
      subst k2. pose proof (H k) as H1. cbn [map_get] in H1. rewrite str_eqb_refl in H1. inversion H1; subst.
      constructor; [easy|]. apply IH; [easy|]. intros k'. specialize (H k'). cbn [map_get] in H. destruct (str_eqb k' k) eqn:E; [|easy].
      apply str_eqb_eq in E as ->. rewrite !below_none by easy. constructor.
Qed.
Lemma bt_eqb_rel : forall V W (f : V -> W -> bool) (R : V -> W -> Prop) (a : list (str * V)) (b : list (str * W)), ksorted a -> ksorted b ->
  (forall k l v w, map_get k a = Some v -> map_get l b = Some w -> (f v w = true <-> R v w)) ->
  bt_eqb f a b = true <-> forall k, opt_rel R (map_get k a) (map_get k b).
Proof.
  intros V W f R a b A B H. rewrite <- ksorted_rel by easy. unfold bt_eqb. apply vec_eqb_rel. intros [k v] [l w] I J. cbn [fst snd].
  rewrite andb_true_iff, str_eqb_eq. rewrite (H k l v w); [tauto|now apply ksorted_get|now apply ksorted_get].
Qed.

(** ** Components and calendars *)

Definition subs_eqb (c d : str * inner) : bool := str_eqb (fst c) (fst d) && inner_eqb (snd c) (snd d).
Lemma inner_eqb_eq : forall i j, inner_eqb i j = bt_eqb prop_eqb (i_props i) (i_props j)
  && (bt_eqb (vec_eqb prop_eqb) (i_multi i) (i_multi j) && vec_eqb subs_eqb (i_comps i) (i_comps j)).
Proof.
  intros [ps ms cs] j. cbn [inner_eqb i_props i_multi i_comps]. f_equal. f_equal. unfold vec_eqb. f_equal.
  generalize (i_comps j). clear. induction cs as [|[n c] cs IH]; intros [|[m d] ds]; [easy..|]. cbn [zip_eqb]. unfold subs_eqb at 1. cbn [fst snd]. f_equal. apply IH.
Qed.
Lemma inner_eqb_same : forall i j, well_made i -> well_made j -> inner_all params_once i -> inner_all params_once j ->
  inner_eqb i j = true <-> same_inner i j.
Proof.
  induction i as [ps ms cs IH] using inner_deep. intros j Wi Wj Oi Oj. rewrite inner_eqb_eq.
  inversion Wi as [? [B1 _ B3 _] Ci]; subst. inversion Wj as [? [D1 _ D3 _] Cj]; subst.
  inversion Oi as [? O1 O2 O3]; subst. inversion Oj as [? Q1 Q2 Q3]; subst. cbn [i_props i_multi i_comps] in *.
  rewrite !andb_true_iff.
  assert (E1 : bt_eqb prop_eqb ps (i_props j) = true <-> forall k, opt_rel reordered (map_get k ps) (map_get k (i_props j))).
  { apply bt_eqb_rel; [easy|easy|]. intros k l v w V W. apply prop_eqb_same; eauto. }
  assert (E2 : bt_eqb (vec_eqb prop_eqb) ms (i_multi j) = true <-> forall k, opt_rel (Forall2 reordered) (map_get k ms) (map_get k (i_multi j))).
  { apply bt_eqb_rel; [easy|easy|]. intros k l v w V W. apply vec_eqb_rel. intros x y X Y. apply prop_eqb_same.
    - apply O2 in V. rewrite Forall_forall in V. auto.
    - apply Q2 in W. rewrite Forall_forall in W. auto. }
  assert (E3 : vec_eqb subs_eqb cs (i_comps j) = true <-> Forall2 (fun c d => fst c = fst d /\ same_inner (snd c) (snd d)) cs (i_comps j)).
  { apply vec_eqb_rel. intros x y X Y. unfold subs_eqb. rewrite andb_true_iff, str_eqb_eq. rewrite Forall_forall in IH, Ci, Cj, O3, Q3. now rewrite IH by auto. }
  rewrite E1, E2, E3. split; [intros (H1 & H2 & H3); now constructor|]. intros H. now inversion H.
Qed.
Lemma cc_eqb_same : forall c d, made (cc_inner c) -> made (cc_inner d) -> inner_all params_once (cc_inner c) -> inner_all params_once (cc_inner d) ->
  cc_eqb c d = true <-> same_cc c d.
Proof.
  intros c d C D P Q. apply made_well in C, D. destruct c as [i|i|i|[n i]], d as [j|j|j|[m j]]; cbn [cc_eqb same_cc cc_inner fst snd] in *; try easy; try (now apply inner_eqb_same).
  rewrite andb_true_iff, str_eqb_eq. now rewrite inner_eqb_same.
Qed.
Definition cal_made (c : calendar) : Prop := Forall (fun x => made (cc_inner x)) (c_comps c).
Lemma cal_eqb_same : forall c d, cal_made c -> cal_made d -> cal_all params_once c -> cal_all params_once d ->
  cal_eqb c d = true <-> same_cal c d.
Proof.
  intros c d C D [P P'] [Q Q']. unfold cal_made, cal_eqb, same_cal in *. rewrite Forall_forall in *. rewrite andb_true_iff.
  rewrite (vec_eqb_rel _ _ _ reordered), (vec_eqb_rel _ _ _ same_cc); [easy| |].
  - intros x y X Y. apply cc_eqb_same; auto.
  - intros x y X Y. apply prop_eqb_same; auto.
Qed.

(** ** One order of parameters *)

Lemma one_order_same : forall p q, one_order p -> reordered p q -> p = q.
Proof.
  intros [k v ps] [k' v' qs] O (K & V & P). unfold one_order in O. cbn [p_key p_val p_params] in *. subst. f_equal.
  destruct ps as [|a [|b ps]]; [now apply Permutation_nil in P|now apply Permutation_length_1_inv in P|cbn in O; lia].
Qed.
Lemma forall2_eq : forall A (R : A -> A -> Prop) l m, (forall x y, In x l -> In y m -> R x y -> x = y) -> Forall2 R l m -> l = m.
Proof.
  intros A R l m H F. induction F as [|x y l m E F IH]; [easy|]. f_equal; [apply H; cbn; auto|]. apply IH. intros; apply H; cbn; auto.
Qed.
Lemma one_order_props : forall l m, Forall one_order l -> Forall2 reordered l m -> l = m.
Proof. intros l m O. apply forall2_eq. intros x y X _. rewrite Forall_forall in O. now apply one_order_same, O. Qed.
Lemma one_order_inner : forall i j, well_made i -> well_made j -> inner_all one_order i -> same_inner i j -> i = j.
Proof.
  induction i as [ps ms cs IH] using inner_deep. intros [qs ns ds] Wi Wj O S. inversion S as [? ? S1 S2 S3]; subst.
  inversion Wi as [? [B1 _ B3 _] Ci]; subst. inversion Wj as [? [D1 _ D3 _] Cj]; subst. inversion O as [? O1 O2 O3]; subst.
  cbn [i_props i_multi i_comps] in *. f_equal.
  - apply ksorted_ext; [easy|easy|]. intros k. specialize (S1 k). specialize (O1 k). destruct S1 as [|p q E]; [easy|]. f_equal. apply one_order_same; auto.
  - apply ksorted_ext; [easy|easy|]. intros k. specialize (S2 k). specialize (O2 k). destruct S2 as [|p q E]; [easy|]. f_equal. apply one_order_props; auto.
  - eapply forall2_eq; [|exact S3]. intros [n c] [m d] X Y [E F]. cbn [fst snd] in *. subst. f_equal. rewrite Forall_forall in *.
    apply (IH _ X); [apply (Ci _ X)|apply (Cj _ Y)|apply (O3 _ X)|easy].
Qed.
Lemma one_order_cal : forall c d, cal_made c -> cal_made d -> cal_all one_order c -> same_cal c d -> c = d.
Proof.
  intros [ps cs] [qs ds] C D [P P'] [S S']. unfold cal_made in *. cbn [c_props c_comps] in *. f_equal; [now apply one_order_props|].
  eapply forall2_eq; [|exact S']. intros x y X Y E. rewrite Forall_forall in *. specialize (C _ X). specialize (D _ Y). specialize (P' _ X). apply made_well in C, D.
  destruct x as [i|i|i|[n i]], y as [j|j|j|[m j]]; cbn [same_cc cc_inner fst snd] in *; try easy; try (f_equal; now apply one_order_inner).
  destruct E as [-> E]. do 2 f_equal. now apply one_order_inner.
Qed.

(** ** The lines *)

Lemma forall2_concat : forall A (R : A -> A -> Prop) l m, Forall2 (Forall2 R) l m -> Forall2 R (concat l) (concat m).
Proof. intros A R l m F. induction F; [constructor|]. cbn [concat]. now apply Forall2_app. Qed.
Lemma forall2_snd : forall V (R : V -> V -> Prop) (a b : list (str * V)), Forall2 (fun x y => fst x = fst y /\ R (snd x) (snd y)) a b -> Forall2 R (map snd a) (map snd b).
Proof. intros V R a b F. induction F as [|x y a b [_ H] _ IH]; constructor; easy. Qed.
Lemma order_same : forall i j, well_made i -> well_made j -> same_inner i j -> Forall2 reordered (order i) (order j).
Proof.
  induction i as [ps ms cs IH] using inner_deep. intros [qs ns ds] Wi Wj S. rewrite !order_eq. inversion S as [? ? S1 S2 S3]; subst.
  inversion Wi as [? [B1 _ B3 _] Ci]; subst. inversion Wj as [? [D1 _ D3 _] Cj]; subst. cbn [i_props i_multi i_comps] in *.
  apply (ksorted_rel _ _ _ _ _ B1 D1) in S1. apply (ksorted_rel _ _ _ _ _ B3 D3) in S2.
  apply Forall2_app; [now apply forall2_snd|]. apply Forall2_app; [now apply forall2_concat, forall2_snd|].
  clear - IH Ci Cj S3. induction S3 as [|[n c] [m d] cs ds [_ H] _ IHl]; [constructor|]. inversion IH; inversion Ci; inversion Cj; subst.
  cbn [flat_map map concat snd] in *. apply Forall2_app; auto.
Qed.
Lemma cal_order_same : forall c d ps qs, cal_made c -> cal_made d -> same_cal c d -> cal_in_order c ps -> cal_in_order d qs -> Forall2 reordered ps qs.
Proof.
  intros c d ps qs C D [S S'] P Q. apply cal_order_one in P as ->; [|easy]. apply cal_order_one in Q as ->; [|easy].
  apply Forall2_app; [easy|]. unfold cal_made in *. induction S' as [|x y cs ds H _ IH]; [constructor|]. inversion C; inversion D; subst.
  cbn [flat_map]. apply Forall2_app; [|auto]. apply order_same; [now apply made_well..|].
  destruct x as [i|i|i|[n i]], y as [j|j|j|[m j]]; cbn [same_cc cc_inner fst snd] in *; easy.
Qed.

(** ** Parsed components *)

Lemma zcomp_deep : forall P : zcomp -> Prop, (forall n ps cs, Forall P cs -> P (mk_zcomp n ps cs)) -> forall c, P c.
Proof. intros P H. fix F 1. intros [n ps cs]. apply H. induction cs; constructor; [apply F|easy]. Qed.
Lemma vec_eqb_map : forall A B (f : A -> A -> bool) (g : A -> B) l m, (forall x y, In x l -> (f x y = true <-> g x = g y)) -> vec_eqb f l m = true <-> map g l = map g m.
Proof.
  intros A B f g l m H. rewrite (vec_eqb_rel _ _ _ (fun x y => g x = g y)) by (intros; now apply H). clear. revert m.
  induction l as [|x l IH]; intros [|y m]; cbn [map]; split; intros F; try easy; try (now inversion F).
  - inversion F; subst. f_equal; [easy|]. now apply IH.
  - injection F as E F. constructor; [easy|]. now apply IH.
Qed.
Lemma cow_eqb_eq : forall c d, cow_eqb c d = true <-> cow_str c = cow_str d.
Proof. intros. apply str_eqb_eq. Qed.
Lemma zparam_eqb_eq : forall p q, zparam_eqb p q = true <-> param_text p = param_text q.
Proof.
  intros [k v] [l w]. unfold zparam_eqb, param_text. cbn [zp_key zp_val]. rewrite andb_true_iff, cow_eqb_eq.
  destruct v as [v|], w as [w|]; cbn [option_map]; try rewrite cow_eqb_eq; split; intros H; try (destruct H; congruence); try (now injection H as -> ->); try (now injection H as ->); easy.
Qed.
Lemma zprop_eqb_eq : forall p q, zprop_eqb p q = true <-> prop_text p = prop_text q.
Proof.
  intros [k v ps] [l w qs]. unfold zprop_eqb, prop_text. cbn [zr_name zr_val zr_params]. rewrite !andb_true_iff, !cow_eqb_eq.
  rewrite (vec_eqb_map _ _ _ param_text) by (intros; apply zparam_eqb_eq). split; [intros (-> & -> & ->); easy|]. intros H. now injection H as -> -> ->.
Qed.
Lemma zcomp_eqb_unfold : forall n ps cs d, zcomp_eqb (mk_zcomp n ps cs) d = cow_eqb n (zc_name d) && (vec_eqb zprop_eqb ps (zc_props d) && vec_eqb zcomp_eqb cs (zc_comps d)).
Proof.
  intros n ps cs d. cbn [zcomp_eqb]. do 2 f_equal. unfold vec_eqb. f_equal. generalize (zc_comps d). clear.
  induction cs as [|c cs IH]; intros [|d ds]; [easy..|]. cbn [zip_eqb]. f_equal. apply IH.
Qed.
Lemma zcomp_eqb_eq : forall c d, zcomp_eqb c d = true <-> comp_text c = comp_text d.
Proof.
  induction c as [n ps cs IH] using zcomp_deep. intros [m qs ds]. rewrite zcomp_eqb_unfold. cbn [zc_name zc_props zc_comps comp_text].
  rewrite !andb_true_iff, cow_eqb_eq, (vec_eqb_map _ _ _ prop_text) by (intros; apply zprop_eqb_eq).
  rewrite Forall_forall in IH. rewrite (vec_eqb_map _ _ _ comp_text) by (intros; now apply IH). split; [intros (-> & -> & ->); easy|].
  intros H. now injection H as -> -> ->.
Qed.

(** ** Getters *)

Lemma same_inner_value : forall i j k, same_inner i j -> option_map p_val (map_get k (i_props i)) = option_map p_val (map_get k (i_props j)).
Proof. intros i j k S. inversion S as [? ? H _ _]; subst. destruct (H k) as [|p q (_ & V & _)]; [easy|]. cbn [option_map]. now rewrite V. Qed.
Lemma same_inner_getters {U : Unicode} : forall i j, inner_all params_once i -> same_inner i j ->
  (forall f, field_get f i = field_get f j) /\ (forall f, time_get f i = time_get f j) /\ (forall f, date_get f i = date_get f j)
  /\ (forall f, num_get f i = num_get f j) /\ get_class i = get_class j /\ event_get_status i = event_get_status j /\ todo_get_status i = todo_get_status j.
Proof.
  intros i j O S. assert (V : forall k, property_value i k = property_value j k) by (intros k; now apply same_inner_value).
  assert (D : forall k, match map_get k (i_props i) with Some p => dpt_from_property p | None => None end
    = match map_get k (i_props j) with Some p => dpt_from_property p | None => None end).
  { intros k. inversion S as [? ? H _ _]; subst. inversion O as [? O1 _ _]; subst. specialize (O1 k). destruct (H k) as [|p q R]; [easy|].
    apply (reordered_reads (I := Build_Iso8601 (fun _ => None)) _ _ R). now apply O1. }
  repeat apply conj; try intros []; cbn [field_get time_get date_get num_get];
    unfold get_summary, get_description, get_uid, get_url, get_location, get_street_address, get_extended_address, get_locality, get_region, get_country, get_postal_code,
      get_timestamp, get_created, get_last_modified, get_completed, get_start, get_end, get_due, get_priority, get_sequence, get_percent_complete, get_class, event_get_status, todo_get_status;
    rewrite ?V; easy || apply D.
Qed.

(** ** What was parsed *)

Lemma conv_inner_once : forall c, inner_all params_once (conv_inner c).
Proof.
  assert (P : forall q, params_once (conv_prop q)) by (intros q; apply (conv_prop_says q)).
  induction c as [n ps cs IH] using pcomp_deep. constructor.
  - intros k p. rewrite conv_inner_single. destruct (is_multi_name k); [easy|]. destruct (find (fun q => str_eqb (Parser.pr_name q) k) (rev ps)); [|easy].
    intros E. injection E as <-. apply P.
  - intros k l. rewrite conv_inner_multi. destruct (is_multi_name k); [|easy].
    assert (F : Forall params_once (map conv_prop (filter (fun q => str_eqb (Parser.pr_name q) k) ps))) by (apply Forall_map, Forall_forall; auto).
    destruct (map conv_prop _); [easy|]. intros E. now injection E as <-.
  - rewrite conv_inner_comps. now apply Forall_map.
Qed.
Lemma conv_cal_once : forall c, cal_made (conv_cal c) /\ cal_all params_once (conv_cal c).
Proof.
  intros [ps cs]. unfold cal_made, cal_all, conv_cal. cbn [c_props c_comps pcal_props pcal_comps]. split; [|split]; apply Forall_map, Forall_forall; intros x _.
  - rewrite (proj2 (conv_cc_kind x)). apply made_parsed.
  - apply (conv_prop_says x).
  - rewrite (proj2 (conv_cc_kind x)). apply conv_inner_once.
Qed.
Lemma same_cal_refl : forall c, same_cal c c.
Proof.
  intros c. split; [induction (c_props c); constructor; [repeat split; easy|easy]|]. induction (c_comps c) as [|x l IH]; constructor; [|easy].
  destruct x; cbn [same_cc]; auto using same_inner_refl.
Qed.
Lemma same_cal_sym : forall c d, same_cal c d -> same_cal d c.
Proof.
  intros c d [H K]. split; [induction H as [|p q l m (A & B & C) _ IH]; constructor; [repeat split; easy|easy]|].
  induction K as [|x y l m E _ IH]; constructor; [|easy]. destruct x, y; cbn [same_cc] in *; try easy; try (now apply same_inner_sym).
  destruct E. split; [easy|]. now apply same_inner_sym.
Qed.
Lemma same_cal_trans : forall c d e, same_cal c d -> same_cal d e -> same_cal c e.
Proof.
  intros c d e [H K] [H' K']. split.
  - eapply forall2_trans; [|exact H|exact H']. apply Forall_forall. eauto using reordered_trans.
  - eapply forall2_trans; [|exact K|exact K']. apply Forall_forall. intros x _ y z. destruct x, y, z; cbn [same_cc]; try easy; try apply same_inner_trans.
    intros [A B] [C D]. split; [congruence|]. eapply same_inner_trans; eauto.
Qed.
