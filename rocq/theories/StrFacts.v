(** Facts about the string and map operations of [Str]. *)
From Verif Require Import Str.
From Verif Require Export Spec.
From Coq Require Import ZifyBool ZifyNat ZifyN.

(** ** Equality and order *)

Lemma str_eqb_eq : forall a b, str_eqb a b = true <-> a = b.
Proof.
  induction a as [|x a IH]; destruct b as [|y b]; cbn; split; intros H; try easy.
  - apply andb_true_iff in H as [H1 H2]. apply N.eqb_eq in H1. apply IH in H2. congruence.
  - injection H as -> ->. rewrite N.eqb_refl. cbn. now apply IH.
Qed.

Lemma str_eqb_refl : forall a, str_eqb a a = true.
Proof. intros a. now apply str_eqb_eq. Qed.

Lemma str_eqb_neq : forall a b, str_eqb a b = false <-> a <> b.
Proof.
  intros a b. destruct (str_eqb a b) eqn:E.
  - apply str_eqb_eq in E. split; [discriminate|congruence].
  - split; [|easy]. intros _ ->. now rewrite str_eqb_refl in E.
Qed.

Lemma str_eqb_sym : forall a b, str_eqb a b = str_eqb b a.
Proof.
  intros a b. destruct (str_eqb a b) eqn:E.
  - apply str_eqb_eq in E as ->. now rewrite str_eqb_refl.
  - symmetry. apply str_eqb_neq. apply str_eqb_neq in E. congruence.
Qed.

Lemma str_eq_dec : forall a b : str, {a = b} + {a <> b}.
Proof. apply list_eq_dec, N.eq_dec. Qed.

Lemma str_cmp_eq : forall a b, str_cmp a b = Eq <-> a = b.
Proof.
  induction a as [|x a IH]; destruct b as [|y b]; cbn; split; intros H; try easy.
  - destruct (x ?= y)%N eqn:E; try easy. apply N.compare_eq in E. apply IH in H. congruence.
  - injection H as -> ->. rewrite N.compare_refl. now apply IH.
Qed.

Lemma str_cmp_refl : forall a, str_cmp a a = Eq.
Proof. intros. now apply str_cmp_eq. Qed.

Lemma str_cmp_antisym : forall a b, str_cmp b a = CompOpp (str_cmp a b).
Proof.
  induction a as [|x a IH]; destruct b as [|y b]; cbn; try easy.
  rewrite (N.compare_antisym x y), IH. now destruct (x ?= y)%N.
Qed.

Lemma str_cmp_lt_trans : forall a b c,
  str_cmp a b = Lt -> str_cmp b c = Lt -> str_cmp a c = Lt.
Proof.
  induction a as [|x a IH]; destruct b as [|y b], c as [|z c]; cbn; try easy.
  destruct (N.compare_spec x y), (N.compare_spec y z); try easy; intros H1 H2;
    destruct (N.compare_spec x z); try easy; try lia.
  subst. eapply IH; eauto.
Qed.

(** ** UTF-8: byte order is code point order *)

Lemma utf8_length : forall c, length (utf8 c) = utf8_len c.
Proof.
  intros c. unfold utf8, utf8_len.
  destruct (c <? 128)%N; [easy|]. destruct (c <? 2048)%N; [easy|]. now destruct (c <? 65536)%N.
Qed.

Lemma utf8s_length : forall s, length (utf8s s) = blen s.
Proof.
  induction s as [|c s IH]; cbn; [easy|].
  rewrite app_length, utf8_length. unfold utf8s in IH. now rewrite IH.
Qed.

(* lexicographic comparison of two different encodings is decided inside the encodings *)
Lemma cmp_app_lt : forall a b x y,
  str_cmp a b = Lt -> (forall p, b <> a ++ p) -> str_cmp (a ++ x) (b ++ y) = Lt.
Proof.
  induction a as [|u a IH]; destruct b as [|v b]; cbn; intros x y H Hp; try easy.
  - exfalso. now apply (Hp (v :: b)).
  - destruct (u ?= v)%N eqn:E; try easy. apply IH; [easy|].
    intros p Hb. apply (Hp p). apply N.compare_eq in E. congruence.
Qed.

Ltac zdiv :=
  repeat match goal with
  | |- context [N.div ?a ?b] =>
      let q := fresh "q" in let r := fresh "r" in
      pose proof (N.div_mod a b ltac:(lia));
      pose proof (N.mod_lt a b ltac:(lia));
      set (q := N.div a b) in *; set (r := N.modulo a b) in *; clearbody q r
  end.

Lemma utf8_lt : forall c d, (d < 1114112)%N -> (c < d)%N ->
  forall x y, str_cmp (utf8 c ++ x) (utf8 d ++ y) = Lt.
Proof.
  intros c d Hd H x y. unfold utf8.
  assert (D : forall u v, (u < v)%N -> (u ?= v)%N = Lt) by (intros; now apply N.compare_lt_iff).
  destruct (c <? 128)%N eqn:E1; [|destruct (c <? 2048)%N eqn:E2; [|destruct (c <? 65536)%N eqn:E3]];
  (destruct (d <? 128)%N eqn:F1; [|destruct (d <? 2048)%N eqn:F2; [|destruct (d <? 65536)%N eqn:F3]]);
  try lia; cbn [app str_cmp].
  1: rewrite D by lia; reflexivity.
  1-3: rewrite D; [reflexivity|]; zdiv; lia.
  - (* 2 bytes *)
    destruct (N.compare_spec (192 + c / 64) (192 + d / 64)) as [E|E|E].
    + rewrite D; [reflexivity|].
      pose proof (N.div_mod c 64 ltac:(lia)); pose proof (N.div_mod d 64 ltac:(lia)). lia.
    + reflexivity.
    + exfalso. pose proof (N.div_le_mono c d 64 ltac:(lia) ltac:(lia)). lia.
  - rewrite D; [reflexivity|]. 
    assert (c / 64 < 32)%N by (apply N.div_lt_upper_bound; lia). lia.
  - rewrite D; [reflexivity|].
    assert (c / 64 < 32)%N by (apply N.div_lt_upper_bound; lia). lia.
  - (* 3 bytes *)
    pose proof (N.div_mod c 64 ltac:(lia)); pose proof (N.div_mod d 64 ltac:(lia)).
    pose proof (N.div_mod (c/64) 64 ltac:(lia)); pose proof (N.div_mod (d/64) 64 ltac:(lia)).
    rewrite !N.div_div in * by lia. change (64 * 64)%N with 4096%N in *.
    pose proof (N.mod_lt c 64 ltac:(lia)). pose proof (N.mod_lt d 64 ltac:(lia)).
    pose proof (N.mod_lt (c/64) 64 ltac:(lia)). pose proof (N.mod_lt (d/64) 64 ltac:(lia)).
    destruct (N.compare_spec (224 + c / 4096) (224 + d / 4096)) as [E|E|E]; [|reflexivity|lia].
    destruct (N.compare_spec (128 + (c / 64) mod 64) (128 + (d / 64) mod 64)) as [G|G|G];
      [|reflexivity|lia].
    rewrite D; [reflexivity|]. lia.
  - rewrite D; [reflexivity|].
    assert (c / 4096 < 16)%N by (apply N.div_lt_upper_bound; lia). lia.
  - (* 4 bytes *)
    pose proof (N.div_mod c 64 ltac:(lia)); pose proof (N.div_mod d 64 ltac:(lia)).
    pose proof (N.div_mod (c/64) 64 ltac:(lia)); pose proof (N.div_mod (d/64) 64 ltac:(lia)).
    pose proof (N.div_mod (c/4096) 64 ltac:(lia)); pose proof (N.div_mod (d/4096) 64 ltac:(lia)).
    rewrite !N.div_div in * by lia. change (64 * 64)%N with 4096%N in *.
    change (4096 * 64)%N with 262144%N in *.
    pose proof (N.mod_lt c 64 ltac:(lia)). pose proof (N.mod_lt d 64 ltac:(lia)).
    pose proof (N.mod_lt (c/64) 64 ltac:(lia)). pose proof (N.mod_lt (d/64) 64 ltac:(lia)).
    pose proof (N.mod_lt (c/4096) 64 ltac:(lia)). pose proof (N.mod_lt (d/4096) 64 ltac:(lia)).
    destruct (N.compare_spec (240 + c / 262144) (240 + d / 262144)) as [E|E|E]; [|reflexivity|lia].
    destruct (N.compare_spec (128 + (c / 4096) mod 64) (128 + (d / 4096) mod 64)) as [G|G|G];
      [|reflexivity|lia].
    destruct (N.compare_spec (128 + (c / 64) mod 64) (128 + (d / 64) mod 64)) as [K|K|K];
      [|reflexivity|lia].
    rewrite D; [reflexivity|]. lia.
Qed.

Lemma cmp_app_same : forall p a b, str_cmp (p ++ a) (p ++ b) = str_cmp a b.
Proof. induction p as [|x p IH]; intros; cbn; [easy|]. now rewrite N.compare_refl. Qed.

(** Comparing two Rust strings byte by byte is comparing their code points. *)
Theorem utf8_order : forall a b,
  forallb valid_char a = true -> forallb valid_char b = true ->
  str_cmp (utf8s a) (utf8s b) = str_cmp a b.
Proof.
  assert (V : forall c, valid_char c = true -> (c < 1114112)%N)
    by (intros c; unfold valid_char; lia).
  assert (Ne : forall c, utf8 c <> [])
    by (intros c E; pose proof (utf8_length c) as L; rewrite E in L; unfold utf8_len in L; cbn in L;
        destruct (c <? 128)%N, (c <? 2048)%N, (c <? 65536)%N; discriminate).
  induction a as [|x a IH]; destruct b as [|y b]; cbn [forallb utf8s flat_map str_cmp]; intros Ha Hb;
    try easy.
  - destruct (utf8 y) eqn:E; [now apply Ne in E|easy].
  - destruct (utf8 x) eqn:E; [now apply Ne in E|easy].
  - apply andb_true_iff in Ha as [Hx Ha], Hb as [Hy Hb].
    destruct (N.compare_spec x y) as [E|E|E].
    + subst. rewrite cmp_app_same. now apply IH.
    + apply utf8_lt; auto.
    + rewrite str_cmp_antisym. rewrite utf8_lt; auto.
Qed.

(** ** Prefixes *)

Lemma starts_with_spec : forall p s, starts_with p s = true <-> exists r, s = p ++ r.
Proof.
  induction p as [|a p IH]; intros s; cbn.
  - split; [|easy]. intros _. now exists s.
  - destruct s as [|b s]; split; intros H; try easy.
    + now destruct H as [r H].
    + apply andb_true_iff in H as [H1 H2]. apply N.eqb_eq in H1. apply IH in H2 as [r ->].
      exists r. congruence.
    + destruct H as [r H]. injection H as -> ->. rewrite N.eqb_refl. cbn. apply IH. now exists r.
Qed.

Lemma starts_with_app : forall p r, starts_with p (p ++ r) = true.
Proof. intros. apply starts_with_spec. now exists r. Qed.

Lemma starts_with_skipn : forall p s, starts_with p s = true -> s = p ++ skipn (length p) s.
Proof.
  intros p s H. apply starts_with_spec in H as [r ->].
  now rewrite skipn_app, skipn_all, Nat.sub_diag.
Qed.

Lemma skipn_app_exact : forall (A : Type) (p r : list A), skipn (length p) (p ++ r) = r.
Proof. intros. now rewrite skipn_app, skipn_all, Nat.sub_diag. Qed.
Lemma firstn_app_exact : forall (A : Type) (p r : list A), firstn (length p) (p ++ r) = p.
Proof. intros. now rewrite firstn_app, firstn_all, Nat.sub_diag, app_nil_r. Qed.

Lemma starts_with_app_false : forall p a b, starts_with p a = false -> length p <= length a ->
  starts_with p (a ++ b) = false.
Proof.
  induction p as [|x p IH]; intros a b H L; cbn in *; [easy|].
  destruct a as [|y a]; cbn in *; [lia|].
  destruct (x =? y)%N; cbn in *; [|easy]. apply IH; [easy|lia].
Qed.

(** ** Decimal numbers *)

Lemma dec_val_snoc : forall s c, dec_val (s ++ [c]) = (dec_val s * 10 + (c - 48))%N.
Proof. intros. unfold dec_val. now rewrite fold_left_app. Qed.

Lemma dec_go_spec : forall f n acc, f <> 0 -> (n < 10 ^ N.of_nat f)%N ->
  exists ds, dec_go f n acc = ds ++ acc /\ ds <> [] /\ forallb is_digit ds = true
             /\ dec_val ds = n
             /\ (forall k, k <> 0 -> (n < 10 ^ N.of_nat k)%N -> length ds <= k)
             /\ (forall k, (10 ^ N.of_nat k <= n)%N -> k < length ds).
Proof.
  induction f as [|f IH]; intros n acc Hf Hn; [easy|]. cbn [dec_go].
  assert (Dg : is_digit (48 + n mod 10)%N = true).
  { pose proof (N.mod_lt n 10 ltac:(lia)). unfold is_digit, in_range. lia. }
  destruct (n / 10 =? 0)%N eqn:E.
  - assert (Hs : (n < 10)%N) by (apply N.div_small_iff; lia).
    exists [(48 + n mod 10)%N]. repeat split; try easy.
    + cbn [forallb]. now rewrite Dg.
    + rewrite N.mod_small by easy. cbn. lia.
    + intros k Hk _. cbn. lia.
    + intros k Hk. cbn [length]. destruct k; [lia|].
      rewrite Nat2N.inj_succ, N.pow_succ_r' in Hk.
      pose proof (N.pow_nonzero 10 (N.of_nat k) ltac:(lia)). lia.
  - destruct f as [|f'].
    { cbn in Hn. assert (n / 10 = 0)%N by (apply N.div_small; lia). lia. }
    set (f := S f') in *.
    assert (Hq : (n / 10 < 10 ^ N.of_nat f)%N).
    { apply N.div_lt_upper_bound; [lia|]. now rewrite <- N.pow_succ_r', <- Nat2N.inj_succ. }
    destruct (IH (n / 10)%N ((48 + n mod 10)%N :: acc) ltac:(discriminate) Hq)
      as (ds & E1 & E2 & E3 & E4 & E5 & E6).
    exists (ds ++ [(48 + n mod 10)%N]). repeat split.
    + now rewrite E1, <- app_assoc.
    + now destruct ds.
    + rewrite forallb_app, E3. cbn [forallb]. now rewrite Dg.
    + rewrite dec_val_snoc, E4. pose proof (N.div_mod n 10 ltac:(lia)). lia.
    + intros k Hk Hnk. rewrite app_length. cbn [length].
      destruct k as [|k]; [easy|]. destruct k as [|k].
      { cbn in Hnk. assert (n / 10 = 0)%N by (apply N.div_small; lia). lia. }
      assert (length ds <= S k); [|lia]. apply E5; [easy|].
      apply N.div_lt_upper_bound; [lia|]. now rewrite <- N.pow_succ_r', <- Nat2N.inj_succ.
    + intros k Hk. rewrite app_length. cbn [length]. destruct k as [|k]; [lia|].
      assert (k < length ds); [|lia]. apply E6.
      apply N.div_le_lower_bound; [lia|]. now rewrite <- N.pow_succ_r', <- Nat2N.inj_succ.
Qed.

Lemma size_pow10 : forall n, (n < 10 ^ N.of_nat (S (N.size_nat n)))%N.
Proof.
  intros n.
  assert (S : N.of_nat (N.size_nat n) = N.size n).
  { destruct n as [|p]; [easy|]. unfold N.size_nat, N.size.
    induction p as [p IH|p IH|]; cbn [Pos.size_nat Pos.size]; [| |easy];
      rewrite Nat2N.inj_succ, IH; reflexivity. }
  pose proof (N.size_gt n) as H.
  rewrite Nat2N.inj_succ, N.pow_succ_r', S.
  pose proof (N.pow_le_mono_l 2 10 (N.size n) ltac:(lia)). lia.
Qed.

Lemma dec_spec : forall n,
  dec n <> [] /\ forallb is_digit (dec n) = true /\ dec_val (dec n) = n
  /\ (forall k, k <> 0 -> (n < 10 ^ N.of_nat k)%N -> length (dec n) <= k)
  /\ (forall k, (10 ^ N.of_nat k <= n)%N -> k < length (dec n)).
Proof.
  intros n. destruct (dec_go_spec (S (N.size_nat n)) n [] ltac:(easy) (size_pow10 n))
    as (ds & E1 & E2 & E3 & E4 & E5 & E6).
  unfold dec. rewrite E1, app_nil_r. auto.
Qed.

Lemma dec_val_dec : forall n, dec_val (dec n) = n.
Proof. intros. apply dec_spec. Qed.
Lemma dec_digits : forall n, forallb is_digit (dec n) = true.
Proof. intros. apply dec_spec. Qed.
Lemma dec_nonempty : forall n, dec n <> [].
Proof. intros. apply dec_spec. Qed.

Lemma is_digit_range : forall c, is_digit c = true <-> (48 <= c <= 57)%N.
Proof. intros. unfold is_digit, in_range. lia. Qed.

Lemma parse_uint_dec : forall mx n, (n <= mx)%N -> parse_uint mx (dec n) = Some n.
Proof.
  intros mx n H. destruct (dec_spec n) as (E1 & E2 & E3 & _ & _). unfold parse_uint.
  destruct (dec n) as [|c r] eqn:E; [easy|].
  assert (Hc : is_digit c = true) by (cbn [forallb] in E2; lia).
  apply is_digit_range in Hc.
  replace (c =? PLUS)%N with false by (unfold PLUS; lia).
  rewrite E2, E3. now replace (n <=? mx)%N with true by lia.
Qed.

Lemma parse_uint_le : forall mx s n, parse_uint mx s = Some n -> (n <= mx)%N.
Proof.
  intros mx s n. unfold parse_uint.
  set (d := match s with [] => s | c :: r => if (c =? PLUS)%N then r else s end).
  destruct d; [easy|]. destruct (forallb _ _); [|easy].
  destruct (dec_val _ <=? mx)%N eqn:E; [|easy]. intros H. injection H as <-. lia.
Qed.

Lemma dec_val_zeros : forall k s, dec_val (repeat 48%N k ++ s) = dec_val s.
Proof.
  induction k as [|k IH]; intros s; [easy|].
  rewrite <- (IH s). reflexivity.
Qed.

Lemma pad_spec : forall w n, w <> 0 -> (n < 10 ^ N.of_nat w)%N ->
  length (pad w n) = w /\ forallb is_digit (pad w n) = true /\ dec_val (pad w n) = n.
Proof.
  intros w n Hw H. destruct (dec_spec n) as (_ & E2 & E3 & E4 & _). specialize (E4 w Hw H).
  unfold pad. repeat split.
  - rewrite app_length, repeat_length. lia.
  - rewrite forallb_app, E2, andb_true_r. clear. now induction (w - length (dec n)).
  - now rewrite dec_val_zeros.
Qed.

(** ** Maps *)

Definition sorted {V} (m : list (str * V)) : Prop :=
  forall i j k1 v1 k2 v2, i < j -> nth_error m i = Some (k1, v1) -> nth_error m j = Some (k2, v2) ->
  str_cmp k1 k2 = Lt.

Lemma map_get_bt_same : forall V k (v : V) m, map_get k (bt_insert k v m) = Some v.
Proof.
  induction m as [|[k' v'] m IH]; cbn.
  - now rewrite str_eqb_refl.
  - destruct (str_cmp k k') eqn:E; cbn.
    + now rewrite str_eqb_refl.
    + now rewrite str_eqb_refl.
    + destruct (str_eqb k k') eqn:F; [|easy].
      apply str_eqb_eq in F as ->. now rewrite str_cmp_refl in E.
Qed.

Lemma map_get_bt_other : forall V k k2 (v : V) m, k2 <> k ->
  map_get k2 (bt_insert k v m) = map_get k2 m.
Proof.
  intros V k k2 v m H. induction m as [|[k' v'] m IH]; cbn.
  - now apply str_eqb_neq in H as ->.
  - destruct (str_cmp k k') eqn:E; cbn.
    + apply str_cmp_eq in E as <-. now apply str_eqb_neq in H as ->.
    + now apply str_eqb_neq in H as ->.
    + destruct (str_eqb k2 k'); [easy|]. apply IH.
Qed.

Lemma map_get_hm_same : forall V k (v : V) m, map_get k (hm_insert k v m) = Some v.
Proof.
  induction m as [|[k' v'] m IH]; cbn.
  - now rewrite str_eqb_refl.
  - destruct (str_eqb k k') eqn:E; cbn; rewrite E; easy.
Qed.

Lemma map_get_hm_other : forall V k k2 (v : V) m, k2 <> k ->
  map_get k2 (hm_insert k v m) = map_get k2 m.
Proof.
  intros V k k2 v m H. induction m as [|[k' v'] m IH]; cbn.
  - now apply str_eqb_neq in H as ->.
  - destruct (str_eqb k k') eqn:E; cbn; [apply str_eqb_eq in E as <-; now apply str_eqb_neq in H as ->|].
    destruct (str_eqb k2 k'); [easy|]. apply IH.
Qed.

Lemma map_get_in : forall V k (v : V) m, map_get k m = Some v -> In (k, v) m.
Proof.
  induction m as [|[k' v'] m IH]; cbn; [easy|].
  destruct (str_eqb k k') eqn:E.
  - apply str_eqb_eq in E as ->. intros H. injection H as ->. now left.
  - right. now apply IH.
Qed.

Lemma map_get_none : forall V k (m : list (str * V)), map_get k m = None <-> ~ In k (map fst m).
Proof.
  induction m as [|[k' v'] m IH]; cbn; [easy|].
  destruct (str_eqb k k') eqn:E.
  - apply str_eqb_eq in E as ->. split; [easy|]. intros H. exfalso. apply H. now left.
  - rewrite IH. apply str_eqb_neq in E. split; intros H; [|tauto]. intros [F|F]; [congruence|tauto].
Qed.

(** Strictly increasing keys, as a list predicate. *)
Definition below {V} (k : str) (m : list (str * V)) : Prop :=
  Forall (fun kv => str_cmp k (fst kv) = Lt) m.
Inductive ksorted {V} : list (str * V) -> Prop :=
| ks_nil : ksorted []
| ks_cons : forall k v m, below k m -> ksorted m -> ksorted ((k, v) :: m).

Lemma below_insert : forall V k k0 (v : V) m, below k0 m -> str_cmp k0 k = Lt ->
  below k0 (bt_insert k v m).
Proof.
  induction m as [|[k' v'] m IH]; cbn; intros H L.
  - repeat constructor. easy.
  - inversion_clear H as [|? ? H1 H2]. destruct (str_cmp k k').
    + constructor; easy.
    + constructor; [easy|]. now constructor.
    + constructor; [easy|]. now apply IH.
Qed.

Lemma below_lt : forall V k k' (m : list (str * V)), str_cmp k k' = Lt -> below k' m -> below k m.
Proof.
  intros V k k' m L H. unfold below in *. eapply Forall_impl; [|exact H].
  cbn. intros a. now apply str_cmp_lt_trans.
Qed.

Lemma bt_insert_sorted : forall V k (v : V) m, ksorted m -> ksorted (bt_insert k v m).
Proof.
  induction m as [|[k' v'] m IH]; cbn; intros H.
  - repeat constructor.
  - inversion_clear H as [|? ? ? H1 H2]. destruct (str_cmp k k') eqn:E.
    + apply str_cmp_eq in E as ->. now constructor.
    + constructor; [|now constructor]. constructor; [easy|]. eapply below_lt; eauto.
    + constructor; [|now apply IH]. apply below_insert; [easy|].
      rewrite str_cmp_antisym, E. reflexivity.
Qed.

Lemma ksorted_NoDup : forall V (m : list (str * V)), ksorted m -> NoDup (map fst m).
Proof.
  induction m as [|[k v] m IH]; cbn; intros H; [constructor|].
  inversion_clear H as [|? ? ? H1 H2]. constructor; [|auto].
  intros F. apply in_map_iff in F as [[k' v'] [E F]]. cbn in E. subst k'.
  unfold below in H1. rewrite Forall_forall in H1. apply H1 in F. cbn in F.
  now rewrite str_cmp_refl in F.
Qed.

Lemma ksorted_get : forall V (m : list (str * V)) k v, ksorted m -> In (k, v) m -> map_get k m = Some v.
Proof.
  induction m as [|[k' v'] m IH]; cbn; intros k v H F; [easy|].
  inversion_clear H as [|? ? ? H1 H2]. destruct F as [F|F].
  - injection F as -> ->. now rewrite str_eqb_refl.
  - destruct (str_eqb k k') eqn:E; [|auto].
    apply str_eqb_eq in E as ->. unfold below in H1. rewrite Forall_forall in H1.
    apply H1 in F. cbn in F. now rewrite str_cmp_refl in F.
Qed.

(** Two sorted maps with the same lookups are equal. *)
Lemma ksorted_ext : forall V (m1 m2 : list (str * V)), ksorted m1 -> ksorted m2 ->
  (forall k, map_get k m1 = map_get k m2) -> m1 = m2.
Proof.
  induction m1 as [|[k1 v1] m1 IH]; intros m2 H1 H2 E.
  - destruct m2 as [|[k2 v2] m2]; [easy|]. specialize (E k2). cbn in E.
    now rewrite str_eqb_refl in E.
  - destruct m2 as [|[k2 v2] m2].
    { specialize (E k1). cbn in E. now rewrite str_eqb_refl in E. }
    inversion_clear H1 as [|? ? ? B1 S1]. inversion_clear H2 as [|? ? ? B2 S2].
    assert (K : k1 = k2).
    { destruct (str_cmp k1 k2) eqn:C; [now apply str_cmp_eq in C| |].
      - pose proof (E k1) as F. cbn in F. rewrite str_eqb_refl in F.
        destruct (str_eqb k1 k2) eqn:G; [now apply str_eqb_eq in G|].
        symmetry in F. apply map_get_in in F. unfold below in B2. rewrite Forall_forall in B2.
        apply B2 in F. cbn in F. rewrite str_cmp_antisym, C in F. easy.
      - pose proof (E k2) as F. cbn in F. rewrite str_eqb_refl in F.
        destruct (str_eqb k2 k1) eqn:G; [now apply str_eqb_eq in G|].
        apply map_get_in in F. unfold below in B1. rewrite Forall_forall in B1.
        apply B1 in F. cbn in F. rewrite C in F. easy. }
    subst k2. pose proof (E k1) as F. cbn in F. rewrite str_eqb_refl in F. injection F as ->.
    f_equal. apply IH; auto. intros k. specialize (E k). cbn in E.
    destruct (str_eqb k k1) eqn:G; [|easy]. apply str_eqb_eq in G as ->.
    assert (N : forall m : list (str * V), below k1 m -> map_get k1 m = None).
    { intros m B. apply map_get_none. intros I. apply in_map_iff in I as [[k' v'] [E' I]].
      cbn in E'. subst k'. unfold below in B. rewrite Forall_forall in B. apply B in I.
      cbn in I. now rewrite str_cmp_refl in I. }
    now rewrite !N.
Qed.

Lemma hm_insert_keys : forall V k (v : V) m, NoDup (map fst m) -> NoDup (map fst (hm_insert k v m)).
Proof.
  intros V k v. assert (K : forall m k2, In k2 (map fst (hm_insert k v m)) -> k2 = k \/ In k2 (map fst m)).
  { induction m as [|[k' v'] m IH]; cbn; intros k2; [intuition|].
    destruct (str_eqb k k'); cbn; [intuition|]. intros [H|H]; [intuition|].
    apply IH in H. intuition. }
  induction m as [|[k' v'] m IH]; cbn; intros H; [repeat constructor; easy|].
  inversion_clear H as [|? ? H1 H2]. destruct (str_eqb k k') eqn:E; cbn.
  - now constructor.
  - constructor; [|auto]. intros F. apply K in F as [->|F]; [now rewrite str_eqb_refl in E|easy].
Qed.

Lemma map_get_app : forall V k (a b : list (str * V)),
  map_get k (a ++ b) = match map_get k a with Some v => Some v | None => map_get k b end.
Proof.
  induction a as [|[k1 v1] a IH]; intros b; [easy|]. cbn. destruct (str_eqb k k1); [easy|apply IH].
Qed.

Lemma map_get_hm_fold : forall V k l (m : list (str * V)),
  map_get k (fold_left (fun m q => hm_insert (fst q) (snd q) m) l m)
  = match map_get k (rev l) with Some v => Some v | None => map_get k m end.
Proof.
  induction l as [|[k1 v1] l IH]; intros m; cbn [fold_left rev fst snd]; [easy|].
  rewrite IH, map_get_app. destruct (map_get k (rev l)); [easy|]. cbn.
  destruct (str_eqb k k1) eqn:E.
  - apply str_eqb_eq in E as ->. apply map_get_hm_same.
  - apply map_get_hm_other. intros ->. now rewrite str_eqb_refl in E.
Qed.
Lemma map_get_bt_fold : forall V k l (m : list (str * V)),
  map_get k (fold_left (fun m q => bt_insert (fst q) (snd q) m) l m)
  = match map_get k (rev l) with Some v => Some v | None => map_get k m end.
Proof.
  induction l as [|[k1 v1] l IH]; intros m; cbn [fold_left rev fst snd]; [easy|].
  rewrite IH, map_get_app. destruct (map_get k (rev l)); [easy|]. cbn.
  destruct (str_eqb k k1) eqn:E.
  - apply str_eqb_eq in E as ->. apply map_get_bt_same.
  - apply map_get_bt_other. intros ->. now rewrite str_eqb_refl in E.
Qed.

Lemma map_get_rev : forall V k (l : list (str * V)),
  length (filter (fun q => str_eqb k (fst q)) l) <= 1 -> map_get k (rev l) = map_get k l.
Proof.
  induction l as [|[k1 v1] l IH]; intros H; [easy|]. cbn [filter fst] in H. cbn [rev]. rewrite map_get_app.
  cbn. destruct (str_eqb k k1) eqn:E.
  - cbn in H. destruct (map_get k (rev l)) as [v|] eqn:F; [|easy]. exfalso.
    apply map_get_in, in_rev in F.
    assert (G : In (k, v) (filter (fun q => str_eqb k (fst q)) l))
      by (apply filter_In; split; [easy|apply str_eqb_refl]).
    destruct (filter _ l); [easy|cbn in H; lia].
  - rewrite IH by easy. now destruct (map_get k l).
Qed.

Lemma hm_fold_fresh : forall V l (m : list (str * V)), NoDup (map fst (m ++ l)) ->
  fold_left (fun m q => hm_insert (fst q) (snd q) m) l m = m ++ l.
Proof.
  induction l as [|[k v] l IH]; intros m H; cbn [fold_left]; [now rewrite app_nil_r|].
  cbn [fst snd].
  assert (E : hm_insert k v m = m ++ [(k, v)]).
  { rewrite map_app in H. apply NoDup_remove_2 in H. clear IH.
    assert (N : ~ In k (map fst m)) by (intros F; apply H; apply in_or_app; now left). clear H.
    induction m as [|[k1 v1] m IH]; [easy|]. cbn in N |- *.
    destruct (str_eqb k k1) eqn:E; [apply str_eqb_eq in E; subst; tauto|]. cbn. f_equal. apply IH. tauto. }
  rewrite E, IH by now rewrite <- app_assoc. now rewrite <- app_assoc.
Qed.

Lemma find_app : forall A (f : A -> bool) a b,
  find f (a ++ b) = match find f a with Some x => Some x | None => find f b end.
Proof. intros A f. induction a as [|x a IH]; intros b; cbn; [easy|]. destruct (f x); [easy|apply IH]. Qed.
