(** How many of the properties of a parsed component are kept. *)
From Verif Require Import Str StrFacts Spec ValueTypes Property Component Calendar Nom Parser SpecConv TreeProofs ConvProofs.
From Coq Require Import ListDec ZifyBool ZifyNat ZifyN.

Lemma bt_sum : forall {V} (f : str * V -> nat) k v m, ksorted m ->
  list_sum (map f (bt_insert k v m)) + match map_get k m with Some w => f (k, w) | None => 0 end = list_sum (map f m) + f (k, v).
Proof.
  intros V f k v m S. induction S as [|k' v' m B S IH]; cbn [bt_insert map_get map list_sum fold_right]; [lia|].
  destruct (str_cmp k k') eqn:C.
  - apply str_cmp_eq in C as ->. rewrite str_eqb_refl. cbn [map list_sum fold_right]. lia.
  - assert (str_eqb k k' = false) as ->.
    { destruct (str_eqb k k') eqn:E; [|easy]. apply str_eqb_eq in E as ->. now rewrite str_cmp_refl in C. }
    assert (map_get k m = None) as ->.
    { apply map_get_none. intros I. apply in_map_iff in I as ([q w] & E & I). cbn in E. subst q. unfold below in B. rewrite Forall_forall in B. apply B in I. cbn in I.
      pose proof (str_cmp_lt_trans _ _ _ C I) as Z. now rewrite str_cmp_refl in Z. }
    cbn [map list_sum fold_right]. fold (list_sum (map f m)). lia.
  - assert (str_eqb k k' = false) as ->.
    { destruct (str_eqb k k') eqn:E; [|easy]. apply str_eqb_eq in E as ->. now rewrite str_cmp_refl in C. }
    cbn [map list_sum fold_right]. fold (list_sum (map f m)) (list_sum (map f (bt_insert k v m))). lia.
Qed.
Lemma length_sum : forall {A} (l : list A), length l = list_sum (map (fun _ => 1) l).
Proof. induction l; cbn [length map list_sum fold_right]; [easy|]. now rewrite IHl. Qed.

(** Properties with other names. *)
Notation single_step := (fun m p => bt_insert (pr_name p) (conv_prop p) m).
Lemma single_sorted : forall l m, ksorted m -> ksorted (fold_left single_step l m).
Proof. induction l as [|p l IH]; intros m S; [easy|]. cbn [fold_left]. apply IH. now apply bt_insert_sorted. Qed.
Lemma single_get : forall l k, map_get k (fold_left single_step l []) = None <-> ~ In k (map pr_name l).
Proof.
  intros l k. induction l as [|p l IH] using rev_ind; [easy|]. rewrite fold_left_app, map_app, in_app_iff. cbn [fold_left map].
  destruct (list_eq_dec N.eq_dec (pr_name p) k) as [->|N].
  - rewrite map_get_bt_same. split; [easy|]. intros H. exfalso. apply H. right. now left.
  - rewrite map_get_bt_other by congruence. rewrite IH. cbn [In]. tauto.
Qed.
Lemma single_count : forall l, length (fold_left single_step l []) <= length l
  /\ (length (fold_left single_step l []) = length l <-> NoDup (map pr_name l)).
Proof.
  intros l. induction l as [|p l [IH1 IH2]] using rev_ind; [split; [easy|]; split; [constructor|easy]|].
  rewrite fold_left_app, map_app, app_length. cbn [fold_left map].
  pose proof (bt_sum (fun _ => 1) (pr_name p) (conv_prop p) (fold_left single_step l []) (single_sorted l [] ks_nil)) as B.
  rewrite <- !length_sum in B.
  assert (D : NoDup (map pr_name l ++ [pr_name p]) <-> NoDup (map pr_name l) /\ ~ In (pr_name p) (map pr_name l)).
  { split.
    - intros H. apply NoDup_remove in H. rewrite app_nil_r in H. exact H.
    - intros [H1 H2]. apply NoDup_rev in H1. rewrite <- (rev_involutive (_ ++ _)), rev_app_distr. apply NoDup_rev. cbn [rev app]. constructor; [now rewrite <- in_rev|easy]. }
  rewrite D, <- IH2, <- single_get. destruct (map_get (pr_name p) (fold_left single_step l [])); cbn [length]; (split; [lia|]).
  - split; [lia|]. now intros [_ H].
  - split; [intros H; split; [lia|easy]|]. intros [H _]. lia.
Qed.

(** Properties with the names of those that may occur more than once. *)
Definition multi_size (i : inner) : nat := list_sum (map (fun e => length (snd e)) (i_multi i)).
Lemma multi_count : forall l i, ksorted (i_multi i) ->
  multi_size (fold_left insert_multi l i) = multi_size i + length l.
Proof.
  induction l as [|p l IH]; intros i S; [cbn; lia|]. cbn [fold_left length]. rewrite IH; [|unfold insert_multi; cbn [i_multi]; now apply bt_insert_sorted].
  unfold multi_size at 1. unfold insert_multi. cbn [i_multi].
  match goal with |- context [bt_insert _ ?v _] => pose proof (bt_sum (fun e => length (snd e)) (p_key p) v (i_multi i) S) as B end.
  fold (multi_size i) in B. cbn [snd] in B. destruct (map_get (p_key p) (i_multi i)); [rewrite app_length in B|]; cbn [length] in *; lia.
Qed.

Lemma single_name_dup : forall ps, ~ NoDup (map pr_name (filter (fun p => negb (is_multi p)) ps)) <->
  exists a q b r c, ps = a ++ q :: b ++ r :: c /\ pr_name q = pr_name r /\ ~ multi_name (pr_name q).
Proof.
  intros ps. split.
  - induction ps as [|p ps IH]; cbn [filter]; [intros H; exfalso; apply H; constructor|].
    destruct (negb (is_multi p)) eqn:M.
    + cbn [map]. intros H. destruct (in_dec (list_eq_dec N.eq_dec) (pr_name p) (map pr_name (filter (fun p => negb (is_multi p)) ps))) as [I|I].
      * apply in_map_iff in I as (r & E & I). apply filter_In in I as [I _]. apply in_split in I as (b & c & ->).
        exists [], p, b, r, c. split; [easy|]. split; [easy|]. intros Q. apply is_multi_name_spec in Q. unfold is_multi in M. rewrite Q in M. discriminate M.
      * destruct IH as (a & q & b & r & c & -> & H1 & H2); [intros D; apply H; now constructor|]. now exists (p :: a), q, b, r, c.
    + intros H. destruct (IH H) as (a & q & b & r & c & -> & H1 & H2). now exists (p :: a), q, b, r, c.
  - intros (a & q & b & r & c & -> & E & M) D.
    assert (Q : forall x, pr_name x = pr_name q -> negb (is_multi x) = true).
    { intros x X. unfold is_multi. rewrite X. destruct (is_multi_name (pr_name q)) eqn:Z; [|easy]. apply is_multi_name_spec in Z. easy. }
    rewrite filter_app in D. cbn [filter] in D. rewrite (Q q eq_refl), filter_app in D. cbn [filter] in D. rewrite (Q r (eq_sym E)) in D.
    rewrite !map_app in D. cbn [map] in D. rewrite map_app in D. cbn [map] in D. rewrite <- E in D. apply NoDup_remove_2 in D. apply D.
    rewrite !in_app_iff. right. right. now left.
Qed.

Theorem kept_count : forall n ps cs, let i := conv_inner (mk_pcomp n ps cs) in
  length (i_props i) + multi_size i <= length ps
  /\ (length (i_props i) + multi_size i = length ps <->
      forall a q b r c, ps = a ++ q :: b ++ r :: c -> pr_name q = pr_name r -> multi_name (pr_name q)).
Proof.
  intros n ps cs i. unfold i. cbn [conv_inner]. rewrite insert_multi_props, multi_count by constructor. cbn [i_props]. unfold multi_size. cbn [i_multi map list_sum fold_right].
  rewrite map_length. destruct (single_count (filter (fun p => negb (is_multi p)) ps)) as [L E].
  assert (T : length ps = length (filter (fun p => negb (is_multi p)) ps) + length (filter is_multi ps)).
  { clear. induction ps as [|p ps IH]; [easy|]. cbn [filter length]. destruct (is_multi p); cbn [negb length]; lia. }
  split; [lia|]. split.
  - intros H a q b r c -> Q. destruct (is_multi_name (pr_name q)) eqn:M; [now apply is_multi_name_spec|]. exfalso.
    assert (D : NoDup (map pr_name (filter (fun p => negb (is_multi p)) (a ++ q :: b ++ r :: c)))) by (apply E; lia).
    apply single_name_dup in D; [easy|]. exists a, q, b, r, c. split; [easy|]. split; [easy|]. intros Z. apply is_multi_name_spec in Z. congruence.
  - intros H. assert (D : NoDup (map pr_name (filter (fun p => negb (is_multi p)) ps))); [|apply E in D; lia].
    destruct (NoDup_dec (list_eq_dec N.eq_dec) (map pr_name (filter (fun p => negb (is_multi p)) ps))) as [D|D]; [easy|].
    apply single_name_dup in D as (a & q & b & r & c & Q & Q1 & Q2). now apply H in Q.
Qed.
