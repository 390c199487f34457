(** Which JSON values are read as calendars. *)
From Verif Require Import Str StrFacts ValueTypes Property Component Calendar Nom Parser Serde SpecSerde.
From Coq Require Import ZifyBool ZifyNat ZifyN.

Lemma filter_none : forall k (m : list (str * json)), filter (fun e => str_eqb (fst e) k) m = [] <-> no_entry m k.
Proof.
  intros k m. unfold no_entry. induction m as [|[x v] m IH]; cbn [filter map fst In]; [now split|].
  destruct (str_eqb x k) eqn:Q; [apply str_eqb_eq in Q|apply str_eqb_neq in Q].
  - split; [easy|]. intros H. destruct H. now left.
  - rewrite IH. split; [intros H [E|I]; auto|]. intros H I. apply H. now right.
Qed.
Lemma get_missing : forall k m, get_field k m = Missing <-> no_entry m k.
Proof. intros k m. rewrite <- filter_none. unfold get_field. destruct (filter _ m) as [|e [|e' l]]; split; easy. Qed.
Lemma get_once : forall k m v, get_field k m = Once v <-> has_entry m k v.
Proof.
  intros k m v. unfold get_field. split.
  - revert v. induction m as [|[x w] m IH]; intros v H; [easy|]. cbn [filter fst] in H.
    destruct (str_eqb x k) eqn:Q.
    + apply str_eqb_eq in Q. subst x. destruct (filter _ m) as [|e l] eqn:F; [|easy]. injection H as <-. apply filter_none in F. exists [], m. now split.
    + apply IH in H as (a & b & -> & A & B). exists ((x, w) :: a), b. split; [easy|]. split; [|easy]. cbn. intros [E|I]; [|easy]. subst. now rewrite str_eqb_refl in Q.
  - intros (a & b & -> & A & B). apply filter_none in A, B. rewrite filter_app. cbn [filter fst]. now rewrite str_eqb_refl, A, B.
Qed.
Lemma str_spec : forall v s, de_str v = Some s <-> v = JStr s.
Proof. intros v s. destruct v; cbn; split; intros H; try easy; now injection H as ->. Qed.
Lemma opt_spec : forall v x, de_opt v = Some x <-> opt_json v x.
Proof.
  intros v x. destruct v; cbn; split; intros H; try easy; try (injection H as <-); try constructor; inversion H; subst; easy.
Qed.
Lemma required_spec : forall A (f : json -> option A) k m a, required f (get_field k m) = Some a <-> exists v, has_entry m k v /\ f v = Some a.
Proof.
  intros A f k m a. split.
  - destruct (get_field k m) as [| |v] eqn:G; try easy. apply get_once in G. cbn. eauto.
  - intros (v & E & F). apply get_once in E. now rewrite E.
Qed.
Lemma all_spec : forall A (f : json -> option A) R, (forall v a, f v = Some a <-> R v a) -> forall l x, de_all f l = Some x <-> Forall2 R l x.
Proof.
  intros A f R H. induction l as [|v l IH]; intros x; cbn [de_all].
  - split; [intros E; injection E as <-; constructor|]. intros E. now inversion E.
  - destruct (f v) as [a|] eqn:F.
    + destruct (de_all f l) as [y|] eqn:G.
      * split; [intros E; injection E as <-; constructor; [now apply H|now apply IH]|]. intros E. inversion E as [|? b ? z R1 R2]; subst.
        apply H in R1. apply IH in R2. rewrite F in R1. injection R1 as ->. now injection R2 as ->.
      * split; [easy|]. intros E. inversion E as [|? b ? z R1 R2]; subst. now apply IH in R2.
    + split; [easy|]. intros E. inversion E as [|? b ? z R1 R2]; subst. apply H in R1. now rewrite F in R1.
Qed.
Lemma vec_spec : forall A (f : nat -> json -> option A) R, (forall n v a, f n v = Some a <-> R n v a) ->
  forall n v x, de_vec f n v = Some x <-> list_json R n v x.
Proof.
  intros A f R H n v x. unfold de_vec. destruct n as [|n]; [split; [easy|]; intros E; inversion E|].
  destruct v; try (split; [easy|]; intros E; now inversion E). rewrite (all_spec A (f n) (R n)) by auto.
  split; [now constructor|]. intros E. now inversion E.
Qed.
Lemma param_spec : forall n v q, de_param n v = Some q <-> param_json n v q.
Proof.
  intros [|n] v q; [split; [easy|]; intros E; inversion E|]. unfold de_param. destruct v as [|b|t|s|l|m]; try (split; [easy|]; intros E; now inversion E).
  - destruct l as [|a [|b [|c l]]]; try (split; [easy|]; intros E; now inversion E). split.
    + destruct (de_str a) as [k|] eqn:A; [|easy]. destruct (de_opt b) as [x|] eqn:B; [|easy]. intros E. injection E as <-.
      apply str_spec in A. apply opt_spec in B. subst a. now constructor.
    + intros E. inversion E as [| |? k ? x O]; subst. cbn [de_str]. apply opt_spec in O. now rewrite O.
  - split.
    + destruct (required de_str (get_field (lit "key") m)) as [k|] eqn:K; [|easy]. apply required_spec in K as (a & K & A). apply str_spec in A. subst a.
      destruct (get_field (lit "val") m) as [| |w] eqn:V; cbn [optional]; [|easy|].
      * intros E. injection E as <-. apply get_missing in V. now constructor.
      * destruct (de_opt w) as [x|] eqn:W; [|easy]. intros E. injection E as <-. apply get_once in V. apply opt_spec in W. now apply (pj_object n m k w x).
    + intros E. inversion E as [? ? k w x K V O|? ? k K V|]; subst.
      * assert (X : required de_str (get_field (lit "key") m) = Some k) by (apply required_spec; eauto). rewrite X.
        apply get_once in V. rewrite V. cbn [optional]. apply opt_spec in O. now rewrite O.
      * assert (X : required de_str (get_field (lit "key") m) = Some k) by (apply required_spec; eauto). rewrite X.
        apply get_missing in V. now rewrite V.
Qed.
Lemma prop_spec : forall n v p, de_prop n v = Some p <-> prop_json n v p.
Proof.
  intros [|n] v p; [split; [easy|]; intros E; inversion E|]. unfold de_prop. pose proof (vec_spec _ de_param param_json param_spec n) as L.
  destruct v as [|b|t|s|l|m]; try (split; [easy|]; intros E; now inversion E).
  - destruct l as [|a [|b [|c [|d l]]]]; try (split; [easy|]; intros E; now inversion E). split.
    + destruct (de_str a) as [k|] eqn:A; [|easy]. destruct (de_str b) as [x|] eqn:B; [|easy]. destruct (de_vec de_param n c) as [ps|] eqn:C; [|easy].
      intros E. injection E as <-. apply str_spec in A, B. subst a b. apply L in C. now constructor.
    + intros E. inversion E as [|? k x ? ps P]; subst. cbn [de_str]. apply L in P. now rewrite P.
  - split.
    + destruct (required de_str (get_field (lit "name") m)) as [k|] eqn:K; [|easy]. apply required_spec in K as (a & K & A). apply str_spec in A. subst a.
      destruct (required de_str (get_field (lit "val") m)) as [x|] eqn:V; [|easy]. apply required_spec in V as (a & V & A). apply str_spec in A. subst a.
      destruct (required (de_vec de_param n) _) as [ps|] eqn:P; [|easy]. apply required_spec in P as (a & P & A). apply L in A.
      intros E. injection E as <-. now apply (rj_object n m k x a ps).
    + intros E. inversion E as [? ? k x a ps K V P Q|]; subst.
      assert (X : required de_str (get_field (lit "name") m) = Some k) by (apply required_spec; eauto). rewrite X. clear X.
      assert (X : required de_str (get_field (lit "val") m) = Some x) by (apply required_spec; eauto). rewrite X. clear X.
      assert (X : required (de_vec de_param n) (get_field (lit "params") m) = Some ps) by (apply required_spec; exists a; split; [easy|now apply L]). now rewrite X.
Qed.
Lemma comp_spec : forall n v c, de_comp n v = Some c <-> comp_json n v c.
Proof.
  induction n as [n IH] using lt_wf_ind. intros v c.
  destruct n as [|[|n]]; [split; [easy|]; intros E; inversion E| |].
  { split; [|intros E; inversion E]. cbn [de_comp]. destruct v as [|b|t|s|l|m]; try easy.
    - destruct l as [|a [|b [|d [|e l]]]]; try easy. destruct (de_str a); [|easy]. now destruct (de_vec _ _ b).
    - destruct (required de_str _); [|easy]. destruct (required _ _); [|easy]. now destruct (get_field (lit "components") m). }
  assert (L : forall l x, de_all (de_comp n) l = Some x <-> Forall2 (comp_json n) l x) by (apply all_spec, IH; lia).
  pose proof (vec_spec _ de_prop prop_json prop_spec (S n)) as M. cbn [de_comp].
  set (comps := fun x => match x with JArr l => de_all (de_comp n) l | _ => None end).
  assert (C : forall x cs, comps x = Some cs <-> exists l, x = JArr l /\ Forall2 (comp_json n) l cs).
  { intros x cs. unfold comps. split.
    - destruct x; try easy. intros E. apply L in E. eauto.
    - intros (l & -> & F). now apply L. }
  destruct v as [|b|t|s|l|m]; try (split; [easy|]; intros E; now inversion E).
  - destruct l as [|a [|b [|d [|e l]]]]; try (split; [easy|]; intros E; now inversion E). fold (comps d). split.
    + destruct (de_str a) as [k|] eqn:A; [|easy]. destruct (de_vec de_prop (S n) b) as [ps|] eqn:B; [|easy]. destruct (comps d) as [cs|] eqn:D; [|easy].
      intros E. injection E as <-. apply str_spec in A. subst a. apply M in B. apply C in D as (l & -> & D). now constructor.
    + intros E. inversion E as [|? k ? ps l cs P Q]; subst. cbn [de_str]. apply M in P. rewrite P.
      assert (X : comps (JArr l) = Some cs) by (apply C; eauto). now rewrite X.
  - split.
    + destruct (required de_str (get_field (lit "name") m)) as [k|] eqn:K; [|easy]. apply required_spec in K as (a & K & A). apply str_spec in A. subst a.
      destruct (required (de_vec de_prop (S n)) _) as [ps|] eqn:P; [|easy]. apply required_spec in P as (a & P & A). apply M in A.
      destruct (required comps _) as [cs|] eqn:D; [|easy]. apply required_spec in D as (d & D & F). apply C in F as (l & -> & F).
      intros E. injection E as <-. now apply (cj_object n m k a ps l cs).
    + intros E. inversion E as [? ? k a ps l cs K P D Q F|]; subst.
      assert (X : required de_str (get_field (lit "name") m) = Some k) by (apply required_spec; eauto). rewrite X. clear X.
      assert (X : required (de_vec de_prop (S n)) (get_field (lit "properties") m) = Some ps) by (apply required_spec; exists a; split; [easy|now apply M]).
      rewrite X. clear X.
      assert (X : required comps (get_field (lit "components") m) = Some cs) by (apply required_spec; exists (JArr l); split; [easy|apply C; eauto]). now rewrite X.
Qed.
Lemma cal_spec : forall n v c, de_cal n v = Some c <-> cal_json n v c.
Proof.
  intros [|n] v c; [split; [easy|]; intros E; inversion E|]. unfold de_cal.
  pose proof (vec_spec _ de_prop prop_json prop_spec n) as L. pose proof (vec_spec _ de_comp comp_json comp_spec n) as M.
  destruct v as [|b|t|s|l|m]; try (split; [easy|]; intros E; now inversion E).
  - destruct l as [|a [|b [|d l]]]; try (split; [easy|]; intros E; now inversion E). split.
    + destruct (de_vec de_prop n a) as [ps|] eqn:A; [|easy]. destruct (de_vec de_comp n b) as [cs|] eqn:B; [|easy]. intros E. injection E as <-.
      apply L in A. apply M in B. now constructor.
    + intros E. inversion E as [|? ? ps ? cs P Q]; subst. apply L in P. apply M in Q. now rewrite P, Q.
  - split.
    + destruct (required (de_vec de_prop n) _) as [ps|] eqn:P; [|easy]. apply required_spec in P as (a & P & A). apply L in A.
      destruct (required (de_vec de_comp n) _) as [cs|] eqn:D; [|easy]. apply required_spec in D as (d & D & F). apply M in F.
      intros E. injection E as <-. now apply (kj_object n m a ps d cs).
    + intros E. inversion E as [? ? a ps d cs P D Q F|]; subst.
      assert (X : required (de_vec de_prop n) (get_field (lit "properties") m) = Some ps) by (apply required_spec; exists a; split; [easy|now apply L]).
      rewrite X. clear X.
      assert (X : required (de_vec de_comp n) (get_field (lit "components") m) = Some cs) by (apply required_spec; exists d; split; [easy|now apply M]). now rewrite X.
Qed.

(** ** Round trips *)
Lemma all_map : forall A (f : json -> option A) (g : A -> json) l, de_all f (map g l) = Some l <-> Forall (fun x => f (g x) = Some x) l.
Proof.
  intros A f g. induction l as [|x l IH]; cbn [map de_all]; [now split|]. split.
  - destruct (f (g x)) as [a|] eqn:F; [|easy]. destruct (de_all f (map g l)) as [y|] eqn:G; [|easy]. intros E. injection E as -> ->.
    constructor; [easy|now apply IH].
  - intros E. inversion E as [|? ? E1 E2]; subst. apply IH in E2. now rewrite E1, E2.
Qed.
Lemma max_le : forall A (f : A -> nat) l n, fold_right (fun x d => Nat.max (f x) d) 0 l <= n <-> Forall (fun x => f x <= n) l.
Proof.
  intros A f l n. induction l as [|x l IH]; cbn [fold_right]; [split; [constructor|lia]|]. split.
  - intros H. constructor; [lia|]. apply IH. lia.
  - intros H. inversion H; subst. apply IH in H3. lia.
Qed.
Lemma max_map : forall A B (f : B -> nat) (g : A -> B) l, fold_right (fun x d => Nat.max (f x) d) 0 (map g l) = fold_right (fun x d => Nat.max (f (g x)) d) 0 l.
Proof. intros. induction l as [|x l IH]; [easy|]. cbn [map fold_right]. now rewrite IH. Qed.
Lemma vec_map : forall A (f : nat -> json -> option A) (g : A -> json), (forall n x, f n (g x) = Some x <-> json_depth (g x) <= n) ->
  forall n l, de_vec f n (JArr (map g l)) = Some l <-> json_depth (JArr (map g l)) <= n.
Proof.
  intros A f g H n l. unfold de_vec. cbn [json_depth]. rewrite max_map. destruct n as [|n]; [split; [easy|lia]|].
  rewrite all_map. rewrite <- Nat.succ_le_mono, max_le. split; intros F; (eapply Forall_impl; [|exact F]); cbn; intros a; apply H.
Qed.
Lemma param_round : forall n q, de_param n (ser_param q) = Some q <-> json_depth (ser_param q) <= n.
Proof. intros [|n] [k [v|]]; cbn; split; try easy; lia. Qed.
Lemma required_here : forall A (f : json -> option A) k v m, no_entry m k -> required f (get_field k ((k, v) :: m)) = f v.
Proof. intros A f k v m H. unfold get_field. cbn [filter fst]. apply filter_none in H. now rewrite str_eqb_refl, H. Qed.
Lemma required_next : forall A (f : json -> option A) k l v m, l <> k -> required f (get_field k ((l, v) :: m)) = required f (get_field k m).
Proof. intros A f k l v m H. unfold get_field. cbn [filter fst]. apply str_eqb_neq in H. now rewrite H. Qed.
Lemma prop_round : forall n p, de_prop n (ser_prop p) = Some p <-> json_depth (ser_prop p) <= n.
Proof.
  intros [|n] [k v ps]; [split; [easy|]; cbn; lia|]. pose proof (vec_map _ de_param ser_param param_round n ps) as V.
  unfold de_prop, ser_prop. cbn [pr_name pr_val pr_params].
  change (get_field (lit "name") _) with (Once (JStr k)). change (get_field (lit "val") _) with (Once (JStr v)).
  change (get_field (lit "params") _) with (Once (JArr (map ser_param ps))). cbn [required de_str].
  change (json_depth (JObj _)) with (S (Nat.max (json_depth (JArr (map ser_param ps))) 0)).
  split.
  - destruct (de_vec de_param n (JArr (map ser_param ps))) as [x|]; [|easy]. intros E. injection E as ->. assert (H : Some ps = Some ps) by easy. apply V in H. lia.
  - intros H. assert (X : de_vec de_param n (JArr (map ser_param ps)) = Some ps) by (apply V; lia). now rewrite X.
Qed.
Lemma comp_round : forall n c, de_comp n (ser_comp c) = Some c <-> json_depth (ser_comp c) <= n.
Proof.
  induction n as [n IH] using lt_wf_ind. intros [k ps cs].
  destruct n as [|[|n]]; [split; [easy|]; cbn; lia|split; [|cbn; lia]|].
  { cbn [de_comp ser_comp]. change (get_field (lit "name") _) with (Once (JStr k)).
    change (get_field (lit "properties") _) with (Once (JArr (map ser_prop ps))). change (get_field (lit "components") _) with (Once (JArr (map ser_comp cs))).
    cbn [required de_str]. now destruct (de_vec _ _ _). }
  pose proof (vec_map _ de_prop ser_prop prop_round (S n) ps) as V. cbn [de_comp ser_comp].
  change (get_field (lit "name") _) with (Once (JStr k)).
  change (get_field (lit "properties") _) with (Once (JArr (map ser_prop ps))). change (get_field (lit "components") _) with (Once (JArr (map ser_comp cs))).
  cbn [required de_str]. change (json_depth (JObj _)) with (S (Nat.max (json_depth (JArr (map ser_prop ps))) (Nat.max (json_depth (JArr (map ser_comp cs))) 0))).
  assert (W : de_all (de_comp n) (map ser_comp cs) = Some cs <-> json_depth (JArr (map ser_comp cs)) <= S n).
  { rewrite all_map. cbn [json_depth]. rewrite max_map, <- Nat.succ_le_mono, max_le.
    split; intros F; (eapply Forall_impl; [|exact F]); cbn; intros a; apply IH; lia. }
  split.
  - destruct (de_vec de_prop (S n) _) as [x|]; [|easy]. destruct (de_all (de_comp n) _) as [y|]; [|easy]. intros E. injection E as -> ->.
    assert (H1 : Some ps = Some ps) by easy. assert (H2 : Some cs = Some cs) by easy. apply V in H1. apply W in H2. lia.
  - intros H. assert (X : de_vec de_prop (S n) (JArr (map ser_prop ps)) = Some ps) by (apply V; lia). rewrite X.
    assert (Y : de_all (de_comp n) (map ser_comp cs) = Some cs) by (apply W; lia). now rewrite Y.
Qed.
Lemma cal_round : forall n c, de_cal n (ser_cal c) = Some c <-> json_depth (ser_cal c) <= n.
Proof.
  intros [|n] [ps cs]; [split; [easy|]; cbn; lia|].
  pose proof (vec_map _ de_prop ser_prop prop_round n ps) as V. pose proof (vec_map _ de_comp ser_comp comp_round n cs) as W.
  unfold de_cal, ser_cal. cbn [pcal_props pcal_comps].
  change (get_field (lit "properties") _) with (Once (JArr (map ser_prop ps))). change (get_field (lit "components") _) with (Once (JArr (map ser_comp cs))).
  cbn [required]. change (json_depth (JObj _)) with (S (Nat.max (json_depth (JArr (map ser_prop ps))) (Nat.max (json_depth (JArr (map ser_comp cs))) 0))).
  split.
  - destruct (de_vec de_prop n _) as [x|]; [|easy]. destruct (de_vec de_comp n _) as [y|]; [|easy]. intros E. injection E as -> ->.
    assert (H1 : Some ps = Some ps) by easy. assert (H2 : Some cs = Some cs) by easy. apply V in H1. apply W in H2. lia.
  - intros H. assert (X : de_vec de_prop n (JArr (map ser_prop ps)) = Some ps) by (apply V; lia). rewrite X.
    assert (Y : de_vec de_comp n (JArr (map ser_comp cs)) = Some cs) by (apply W; lia). now rewrite Y.
Qed.
(** Levels of components and levels of values. *)
Lemma prop_levels : forall p, json_depth (ser_prop p) <= 3.
Proof.
  intros [k v ps]. unfold ser_prop. cbn [pr_name pr_val pr_params].
  change (json_depth (JObj _)) with (S (Nat.max (json_depth (JArr (map ser_param ps))) 0)). cbn [json_depth]. rewrite max_map.
  assert (X : fold_right (fun x d => Nat.max (json_depth (ser_param x)) d) 0 ps <= 1); [|lia].
  apply max_le, Forall_forall. intros [a [b|]] _; cbn; lia.
Qed.
Lemma comp_levels : forall c, 2 * comp_depth c <= json_depth (ser_comp c) <= 2 * comp_depth c + 3.
Proof.
  fix IH 1. intros [k ps cs]. cbn [ser_comp comp_depth].
  change (json_depth (JObj _)) with (S (Nat.max (json_depth (JArr (map ser_prop ps))) (Nat.max (json_depth (JArr (map ser_comp cs))) 0))).
  cbn [json_depth]. rewrite !max_map.
  assert (A : fold_right (fun x d => Nat.max (json_depth (ser_prop x)) d) 0 ps <= 3) by (apply max_le, Forall_forall; intros x _; apply prop_levels).
  assert (B : let f := fold_right (fun x d => Nat.max (json_depth (ser_comp x)) d) 0 cs in let g := fold_right (fun x d => Nat.max (comp_depth x) d) 0 cs in
    2 * g <= f <= 2 * g + 3).
  { cbn zeta. induction cs as [|c cs IHc]; cbn [fold_right]; [lia|]. pose proof (IH c). lia. }
  cbn zeta in B. lia.
Qed.
Lemma cal_levels : forall c n, Forall (fun x => comp_depth x <= n) (pcal_comps c) -> json_depth (ser_cal c) <= 2 * n + 5.
Proof.
  intros [ps cs] n H. unfold ser_cal. cbn [pcal_props pcal_comps] in *.
  change (json_depth (JObj _)) with (S (Nat.max (json_depth (JArr (map ser_prop ps))) (Nat.max (json_depth (JArr (map ser_comp cs))) 0))).
  cbn [json_depth]. rewrite !max_map.
  assert (A : fold_right (fun x d => Nat.max (json_depth (ser_prop x)) d) 0 ps <= 3) by (apply max_le, Forall_forall; intros x _; apply prop_levels).
  assert (B : fold_right (fun x d => Nat.max (json_depth (ser_comp x)) d) 0 cs <= 2 * n + 3).
  { apply max_le. eapply Forall_impl; [|exact H]. cbn. intros c L. pose proof (comp_levels c). lia. }
  lia.
Qed.
Lemma nested_depth : forall n, comp_depth (nested n) = S n.
Proof. induction n as [|n IH]; [easy|]. cbn [nested comp_depth fold_right]. rewrite IH. lia. Qed.
Lemma deep_levels : forall c x, In x (pcal_comps c) -> 2 * comp_depth x + 2 <= json_depth (ser_cal c).
Proof.
  intros [ps cs] x I. unfold ser_cal. cbn [pcal_props pcal_comps] in *.
  change (json_depth (JObj _)) with (S (Nat.max (json_depth (JArr (map ser_prop ps))) (Nat.max (json_depth (JArr (map ser_comp cs))) 0))).
  cbn [json_depth]. rewrite !max_map.
  assert (B : json_depth (ser_comp x) <= fold_right (fun x d => Nat.max (json_depth (ser_comp x)) d) 0 cs).
  { pose proof (proj1 (max_le _ (fun x => json_depth (ser_comp x)) cs _) (le_n _)) as F. rewrite Forall_forall in F. now apply F. }
  pose proof (comp_levels x). lia.
Qed.
(** More levels do not hurt, so there is one reading. *)
Lemma Forall2_mono : forall A B (R S : A -> B -> Prop) l x, (forall a b, R a b -> S a b) -> Forall2 R l x -> Forall2 S l x.
Proof. intros A B R S l x H F. induction F; constructor; auto. Qed.
Lemma list_mono : forall A (R : nat -> json -> A -> Prop), (forall n m v a, n <= m -> R n v a -> R m v a) ->
  forall n m v x, n <= m -> list_json R n v x -> list_json R m v x.
Proof.
  intros A R H n m v x L F. destruct F as [n l x F]. destruct m as [|m]; [lia|]. constructor. eapply Forall2_mono; [|exact F]. intros a b. apply H. lia.
Qed.
Lemma param_mono : forall n m v a, n <= m -> param_json n v a -> param_json m v a.
Proof.
  intros n m v a L F. destruct F as [n o k w x K V O|n o k K V|n k w x O]; (destruct m as [|m]; [lia|]); [now apply (pj_object m o k w x)|now constructor|now constructor].
Qed.
Lemma prop_mono : forall n m v a, n <= m -> prop_json n v a -> prop_json m v a.
Proof.
  intros n m v a L F. destruct F as [n o k w b ps K V P F|n k w b ps F]; (destruct m as [|m]; [lia|]).
  - apply (rj_object m o k w b ps); try easy. apply (list_mono _ _ param_mono n); [lia|easy].
  - constructor. apply (list_mono _ _ param_mono n); [lia|easy].
Qed.
Lemma comp_mono : forall n m v a, n <= m -> comp_json n v a -> comp_json m v a.
Proof.
  induction n as [n IH] using lt_wf_ind. intros m v a L F. destruct F as [n o k b ps l cs K P C F G|n k b ps l cs F G]; (destruct m as [|[|m]]; [lia|lia|]).
  - apply (cj_object m o k b ps l cs); try easy; [apply (list_mono _ _ prop_mono (S n)); [lia|easy]|].
    eapply Forall2_mono; [|exact G]. intros x y. apply IH; lia.
  - apply cj_array; [apply (list_mono _ _ prop_mono (S n)); [lia|easy]|]. eapply Forall2_mono; [|exact G]. intros x y. apply IH; lia.
Qed.
Lemma cal_mono : forall n m v a, n <= m -> cal_json n v a -> cal_json m v a.
Proof.
  intros n m v a L F. destruct F as [n o b ps d cs K P F G|n b ps d cs F G]; (destruct m as [|m]; [lia|]).
  - apply (kj_object m o b ps d cs); try easy; [apply (list_mono _ _ prop_mono n)|apply (list_mono _ _ comp_mono n)]; (lia || easy).
  - constructor; [apply (list_mono _ _ prop_mono n)|apply (list_mono _ _ comp_mono n)]; (lia || easy).
Qed.
Lemma ser_one : forall n c d, de_cal n (ser_cal c) = Some d -> d = c.
Proof.
  intros n c d H. apply cal_spec in H. pose proof (proj2 (cal_round (Nat.max n (json_depth (ser_cal c))) c)) as R.
  apply (cal_mono n (Nat.max n (json_depth (ser_cal c)))) in H; [|lia]. apply cal_spec in H. rewrite R in H by lia. now injection H as ->.
Qed.
Lemma cal_deep : forall n c, n < json_depth (ser_cal c) -> de_cal n (ser_cal c) = None.
Proof.
  intros n c H. destruct (de_cal n (ser_cal c)) as [d|] eqn:E; [|easy]. pose proof (ser_one n c d E) as ->. apply cal_round in E. lia.
Qed.
