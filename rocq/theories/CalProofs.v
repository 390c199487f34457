(** Calendars, durations and alarms. *)
From Verif Require Import Str StrFacts ValueTypes Property Chrono DateTime Component Alarm Calendar Nom Parser
  SpecBuild SpecDate SpecTree SpecCal BuildProofs DateProofs SetterProofs ValueProofs TreeProofs.
From Coq Require Import ZifyBool ZifyNat ZifyN.

(** ** Sequence container *)

Lemma run_ops_comps : forall l c, c_comps (run_ops l c) = c_comps c ++ flat_map op_comps l.
Proof.
  induction l as [|o l IH]; intros c; cbn [run_ops fold_left flat_map]; [now rewrite app_nil_r|].
  fold (run_ops l (do_op c o)). rewrite IH, app_assoc. f_equal. destruct o; cbn; now rewrite ?app_nil_r.
Qed.
Lemma run_ops_props : forall l c, c_props (run_ops l c) = c_props c ++ flat_map op_props l.
Proof.
  induction l as [|o l IH]; intros c; cbn [run_ops fold_left flat_map]; [now rewrite app_nil_r|].
  fold (run_ops l (do_op c o)). rewrite IH, app_assoc. f_equal.
  destruct o; cbn [do_op op_props]; unfold cal_name, cal_description, cal_timezone, cal_ttl, cal_append_property;
    cbn [c_props cal_push cal_extend cal_append fst]; rewrite ?app_nil_r, <- ?app_assoc; reflexivity.
Qed.

Lemma first_value_spec : forall k ps v,
  option_map p_val (find (fun p => str_eqb (p_key p) k) ps) = Some v <-> first_value k ps v.
Proof.
  intros k ps v. induction ps as [|p ps IH]; cbn [find].
  - split; [easy|]. intros H. inversion H.
  - destruct (str_eqb (p_key p) k) eqn:E.
    + apply str_eqb_eq in E. split.
      * intros H. injection H as <-. now constructor.
      * intros H. inversion H; subst; easy.
    + apply str_eqb_neq in E. rewrite IH. split.
      * now constructor.
      * intros H. inversion H; subst; easy.
Qed.
Lemma lacks_find : forall k ps, lacks k ps <-> find (fun p => str_eqb (p_key p) (lit k)) ps = None.
Proof.
  intros k ps. unfold lacks. induction ps as [|p ps IH]; cbn [find]; [split; [easy|constructor]|].
  rewrite Forall_cons_iff, IH. destruct (str_eqb (p_key p) (lit k)) eqn:E.
  - apply str_eqb_eq in E. now split.
  - apply str_eqb_neq in E. tauto.
Qed.
Lemma cal_lookup : forall l c k v,
  cal_property_value (run_ops l c) k = Some v <-> first_value k (c_props c ++ flat_map op_props l) v.
Proof. intros l c k v. unfold cal_property_value. rewrite run_ops_props. apply first_value_spec. Qed.
Lemma cal_append_keeps : forall c p k v, cal_property_value c k = Some v ->
  cal_property_value (cal_append_property c p) k = Some v.
Proof.
  intros c p k v. unfold cal_property_value, cal_append_property. cbn [c_props]. rewrite find_app.
  now destruct (find _ (c_props c)).
Qed.
Lemma cal_getters : forall c v,
  (cal_get_name c = Some v <-> first_value (lit "NAME") (c_props c) v
     \/ lacks "NAME" (c_props c) /\ first_value (lit "X-WR-CALNAME") (c_props c) v)
  /\ (cal_get_description c = Some v <-> first_value (lit "DESCRIPTION") (c_props c) v
     \/ lacks "DESCRIPTION" (c_props c) /\ first_value (lit "X-WR-CALDESC") (c_props c) v).
Proof.
  intros c v. unfold cal_get_name, cal_get_description, or_else, cal_property_value.
  rewrite <- !first_value_spec. rewrite !lacks_find.
  split; destruct (find _ (c_props c)) as [p|]; cbn [option_map];
    (split; [intros H; auto|intros [H|[H1 H2]]; easy]).
Qed.
Lemma cal_get_timezone_spec : forall c v,
  cal_get_timezone c = Some v <-> first_value (lit "TIMEZONE_ID") (c_props c) v
     \/ lacks "TIMEZONE_ID" (c_props c) /\ first_value (lit "X-WR-TIMEZONE") (c_props c) v.
Proof.
  intros c v. unfold cal_get_timezone, or_else, cal_property_value.
  rewrite <- !first_value_spec. rewrite !lacks_find.
  destruct (find _ (c_props c)) as [p|]; cbn [option_map];
    (split; [intros H; auto|intros [H|[H1 H2]]; easy]).
Qed.
Lemma first_value_app : forall k a b v, first_value k (a ++ b) v <->
  first_value k a v \/ Forall (fun p => p_key p <> k) a /\ first_value k b v.
Proof.
  intros k. induction a as [|p a IH]; intros b v; cbn [app].
  - split; [right; split; [constructor|easy]|]. intros [H|[_ H]]; [inversion H|easy].
  - split.
    + intros H. inversion H; subst; [left; now constructor|]. apply IH in H4 as [H4|[H4 H5]].
      * left. now constructor.
      * right. split; [now constructor|easy].
    + intros [H|[H1 H2]].
      * inversion H; subst; constructor; [easy|easy|]. apply IH. now left.
      * inversion H1; subst. constructor; [easy|]. apply IH. now right.
Qed.
Lemma cal_setters : forall c s,
  (lacks "NAME" (c_props c) -> cal_get_name (cal_name c s) = Some s)
  /\ (lacks "DESCRIPTION" (c_props c) -> cal_get_description (cal_description c s) = Some s)
  /\ (lacks "TIMEZONE_ID" (c_props c) -> lacks "X-WR-TIMEZONE" (c_props c) ->
      cal_get_timezone (cal_timezone c s) = Some s).
Proof.
  intros c s. split; [|split].
  - intros H. apply cal_getters. left. unfold cal_name, cal_append_property. cbn [c_props]. rewrite <- app_assoc.
    apply first_value_app. right. split; [easy|]. now apply (fv_here _ (prop_new (lit "NAME") s)).
  - intros H. apply cal_getters. left. unfold cal_description, cal_append_property. cbn [c_props]. rewrite <- app_assoc.
    apply first_value_app. right. split; [easy|]. now apply (fv_here _ (prop_new (lit "DESCRIPTION") s)).
  - intros H1 H2. apply cal_get_timezone_spec. right. unfold cal_timezone, cal_append_property. cbn [c_props].
    rewrite <- app_assoc. split.
    + apply Forall_app. split; [easy|]. now repeat constructor.
    + apply first_value_app. right. split; [easy|]. apply fv_later; [easy|].
      now apply (fv_here _ (prop_new (lit "X-WR-TIMEZONE") s)).
Qed.
(** The setter never overrides. *)
Lemma cal_setters_keep : forall c s v,
  (cal_get_name c = Some v -> first_value (lit "NAME") (c_props c) v -> cal_get_name (cal_name c s) = Some v)
  /\ (cal_get_description c = Some v -> first_value (lit "DESCRIPTION") (c_props c) v ->
      cal_get_description (cal_description c s) = Some v)
  /\ (cal_get_timezone c = Some v -> cal_get_timezone (cal_timezone c s) = Some v).
Proof.
  intros c s v. split; [|split].
  - intros _ H. apply cal_getters. left. unfold cal_name, cal_append_property. cbn [c_props]. rewrite <- app_assoc.
    apply first_value_app. now left.
  - intros _ H. apply cal_getters. left. unfold cal_description, cal_append_property. cbn [c_props].
    rewrite <- app_assoc. apply first_value_app. now left.
  - intros H. apply cal_get_timezone_spec. apply cal_get_timezone_spec in H.
    unfold cal_timezone, cal_append_property. cbn [c_props]. rewrite <- app_assoc. destruct H as [H|[H1 H2]].
    + left. apply first_value_app. now left.
    + right. split; [|apply first_value_app; now left]. apply Forall_app. split; [easy|]. now repeat constructor.
Qed.

(** ** Durations *)

Lemma frac_go_spec : forall fuel fig n, (fuel < fig)%nat -> (0 < n < 10 ^ N.of_nat fig)%N ->
  exists k m, frac_go fuel fig n = pad k m /\ (0 < k <= fig)%nat /\ (m < 10 ^ N.of_nat k)%N
    /\ (m * 10 ^ N.of_nat (fig - k) = n)%N.
Proof.
  induction fuel as [|f IH]; intros fig n Hf H; cbn [frac_go].
  - exists fig, n. split; [easy|]. split; [lia|]. split; [lia|]. rewrite Nat.sub_diag. cbn. lia.
  - destruct (n mod 10 =? 0)%N eqn:E.
    + apply N.eqb_eq in E. pose proof (N.div_mod n 10 ltac:(easy)) as D. rewrite E in D.
      destruct fig as [|fig]; [lia|]. rewrite Nat2N.inj_succ, N.pow_succ_r' in H.
      replace (S fig - 1)%nat with fig by lia.
      destruct (IH fig (n / 10)%N) as (k & m & E1 & E2 & E3 & E4); [lia|nia|].
      exists k, m. split; [easy|]. split; [lia|]. split; [easy|].
      replace (S fig - k)%nat with (S (fig - k)) by lia. rewrite Nat2N.inj_succ, N.pow_succ_r'. nia.
    + exists fig, n. split; [easy|]. split; [lia|]. split; [lia|]. rewrite Nat.sub_diag. cbn. lia.
Qed.
Lemma decimal_dec : forall n, decimal (dec n) n.
Proof. intros n. apply decimal_spec. destruct (dec_spec n) as (A & B & D & _). auto. Qed.
Lemma decimal_pad : forall k m, (k <> 0)%nat -> (m < 10 ^ N.of_nat k)%N -> decimal (pad k m) m.
Proof.
  intros k m Hk H. apply decimal_spec. destruct (pad_spec k m Hk H) as (A & B & D). split; [|auto].
  intros E. rewrite E in A. cbn in A. lia.
Qed.
Lemma denotes_eq : forall s t n m, denotes_abs s n -> s = t -> n = m -> denotes_abs t m.
Proof. now intros s t n m H -> ->. Qed.
Lemma dur_text_abs : forall d, denotes_abs (lit "P" ++
  (if (Z.abs_N d =? 0)%N then lit "0D"
   else lit "T" ++ dec (Z.abs_N d / GIGA)%N
        ++ (if (Z.abs_N d mod GIGA =? 0)%N then [] else 46%N :: frac_go 8 9 (Z.abs_N d mod GIGA)%N)
        ++ lit "S")) (Z.abs_N d).
Proof.
  intros d. generalize (Z.abs_N d). intros a. destruct (a =? 0)%N eqn:E.
  - apply N.eqb_eq in E as ->. apply (denotes_eq (lit "P" ++ [48%N] ++ 68%N :: []) _ (0 * DAY + 0)); [|easy|easy].
    apply da_date; [easy|]. apply as_skip. apply as_cons; [|constructor].
    apply am_whole. apply (dc_one 0). lia.
  - pose proof (N.div_mod a GIGA ltac:(easy)) as D. pose proof (N.mod_lt a GIGA ltac:(easy)) as L.
    assert (A : forall t x, amount SECOND t x ->
      denotes_abs (lit "P" ++ [] ++ lit "T" ++ t ++ 83%N :: []) (0 + (x + 0))).
    { intros t x H. apply da_time; [constructor|now destruct t|]. do 2 apply as_skip.
      apply as_cons; [easy|constructor]. }
    destruct (a mod GIGA =? 0)%N eqn:F.
    + apply N.eqb_eq in F. eapply denotes_eq.
      * apply A, am_whole, decimal_dec.
      * reflexivity.
      * unfold SECOND, GIGA in *. lia.
    + destruct (frac_go_spec 8 9 (a mod GIGA)) as (k & m & E1 & E2 & E3 & E4);
        [lia|change (10 ^ N.of_nat 9)%N with GIGA; lia|].
      eapply denotes_eq.
      * apply A. apply (am_frac _ (dec (a / GIGA)) (a / GIGA) (pad k m) m (a mod GIGA)).
        -- apply decimal_dec.
        -- apply decimal_pad; [lia|easy].
        -- destruct (pad_spec k m ltac:(lia) E3) as (-> & _). rewrite <- E4. rewrite <- N.mul_assoc, <- N.pow_add_r.
           replace (N.of_nat (9 - k) + N.of_nat k)%N with 9%N by lia. reflexivity.
      * rewrite E1. cbn [app]. do 2 f_equal. now rewrite <- app_assoc.
      * unfold SECOND, GIGA in *. lia.
Qed.
Lemma dur_text_denotes : forall d, denotes (dur_text d) d.
Proof.
  intros d. pose proof (dur_text_abs d) as H. unfold dur_text. destruct (d <? 0)%Z eqn:E.
  - assert (K : forall t z, denotes_abs t (Z.abs_N d) -> z = (- Z.of_N (Z.abs_N d))%Z -> denotes (DASH :: t) z)
      by (intros t z K ->; now constructor). apply K; [exact H|lia].
  - assert (K : forall t z, denotes_abs t (Z.abs_N d) -> z = Z.of_N (Z.abs_N d) -> denotes t z)
      by (intros t z K ->; now constructor). apply K; [exact H|lia].
Qed.

(** The denotation is unambiguous. *)
Definition num_char (c : char) : bool := is_digit c || (c =? 46)%N.
Lemma decimal_functional : forall s n m, decimal s n -> decimal s m -> n = m.
Proof. intros s n m H1 H2. apply decimal_spec in H1, H2. destruct H1 as (_ & _ & <-), H2 as (_ & _ & <-). easy. Qed.
Lemma decimal_chars : forall s n, decimal s n -> s <> [] /\ forallb is_digit s = true.
Proof. intros s n H. apply decimal_spec in H. tauto. Qed.
Lemma amount_chars : forall u s x, amount u s x -> s <> [] /\ forallb num_char s = true.
Proof.
  assert (K : forall s, forallb is_digit s = true -> forallb num_char s = true).
  { intros s. rewrite !forallb_forall. intros H c I. unfold num_char. now rewrite (H c I). }
  intros u s x [t n H|t n f m y H1 H2 _].
  - apply decimal_chars in H as [H1 H2]. auto.
  - apply decimal_chars in H1 as [H1 H3], H2 as [H2 H4]. split; [now destruct t|].
    rewrite forallb_app. cbn [forallb]. rewrite (K t), (K f) by easy. easy.
Qed.
Lemma split_first : forall (f : char -> bool) a b c d r s, forallb f a = true -> forallb f b = true ->
  f c = false -> f d = false -> a ++ c :: r = b ++ d :: s -> a = b /\ c = d /\ r = s.
Proof.
  induction a as [|x a IH]; intros [|y b] c d r s Fa Fb Fc Fd E; cbn in *.
  - injection E as -> ->. auto.
  - injection E as -> _. now rewrite Fc in Fb.
  - injection E as -> _. now rewrite Fd in Fa.
  - injection E as -> E. apply andb_true_iff in Fa as [_ Fa], Fb as [_ Fb].
    destruct (IH b c d r s Fa Fb Fc Fd E) as (-> & -> & ->). auto.
Qed.
Lemma amount_functional : forall u s x y, amount u s x -> amount u s y -> x = y.
Proof.
  assert (D : forall t n, decimal t n -> ~ In 46%N t).
  { intros t n H I. apply decimal_chars in H as [_ H]. rewrite forallb_forall in H. now specialize (H _ I). }
  intros u s x y H1 H2. inversion H1 as [t n A|t n f m z A1 A2 A3]; inversion H2 as [t' n' B|t' n' f' m' z' B1 B2 B3]; subst.
  - now rewrite (decimal_functional _ _ _ A B).
  - apply D in A. destruct A. apply in_or_app. right. now left.
  - apply D in B. destruct B. apply in_or_app. right. now left.
  - destruct (split_first is_digit t' t 46 46 f' f) as (-> & _ & ->); try easy.
    + now apply decimal_chars in B1.
    + now apply decimal_chars in A1.
    + rewrite (decimal_functional _ _ _ A1 B1). rewrite (decimal_functional _ _ _ A2 B2) in A3. rewrite <- B3 in A3.
      apply N.mul_cancel_r in A3; [now subst|]. now apply N.pow_nonzero.
Qed.
Lemma amounts_head : forall l s n, amounts l s n -> s = [] /\ n = 0%N \/
  exists a c r, s = a ++ c :: r /\ In c (map fst l) /\ forallb num_char a = true.
Proof.
  induction 1 as [l|d l s n _ IH|c u l a x s n H _ _].
  - now left.
  - destruct IH as [IH|(a & c & r & E & I & F)]; [now left|]. right. exists a, c, r. split; [easy|].
    split; [now right|easy].
  - right. exists a, c, s. split; [easy|]. split; [now left|]. now apply amount_chars in H.
Qed.
Lemma amounts_functional : forall l s n m, NoDup (map fst l) -> Forall (fun d => num_char (fst d) = false) l ->
  amounts l s n -> amounts l s m -> n = m.
Proof.
  intros l s n m N F H. revert N F m. induction H as [l|d l s n H IH|c u l a x s n H1 H2 IH]; intros N F m K.
  - apply amounts_head in K as [[_ ->]|(a & c & r & E & _)]; [easy|]. now destruct a.
  - inversion N as [|? ? N1 N2]; inversion F as [|? ? F1 F2]; subst. inversion K as [|? ? ? ? K2|c u ? a x s' ? K1 K2]; subst.
    + apply amounts_head in H as [[_ ->]|(a & c & r & E & _)]; [easy|]. now destruct a.
    + now apply IH.
    + apply amounts_head in H as [[E _]|(a' & c' & r & E & I & G)]; [now destruct a|].
      destruct (split_first num_char a a' c c' s' r) as (-> & -> & ->); try easy.
      * now apply amount_chars in K1.
      * apply in_map_iff in I as ([c'' v] & <- & I). rewrite Forall_forall in F2. now apply F2 in I.
  - inversion N as [|? ? N1 N2]; inversion F as [|? ? F1 F2]; subst. inversion K as [|? ? ? ? K2|? ? ? a' x' s' n' K1 K2]; subst.
    + now destruct a.
    + apply amounts_head in K2 as [[E _]|(a' & c' & r & E & I & G)]; [now destruct a|].
      destruct (split_first num_char a a' c c' s r) as (-> & -> & ->); try easy.
      * now apply amount_chars in H1.
      * apply in_map_iff in I as ([c'' v] & <- & I). rewrite Forall_forall in F2. now apply F2 in I.
    + destruct (split_first num_char a' a c c s' s) as (-> & _ & ->); try easy.
      * now apply amount_chars in K1.
      * now apply amount_chars in H1.
      * rewrite (amount_functional _ _ _ _ H1 K1). f_equal. now apply IH.
Qed.
Lemma amounts_chars : forall l s n c, amounts l s n -> In c s -> num_char c = true \/ In c (map fst l).
Proof.
  intros l s n c H. induction H as [l|d l s n H IH|c' u l a x s n H1 H2 IH]; intros I; [easy| |].
  - destruct (IH I); [now left|now (right; right)].
  - apply amount_chars in H1 as [_ H1]. rewrite forallb_forall in H1. apply in_app_or in I as [I|[<-|I]].
    + left. now apply H1.
    + right. now left.
    + destruct (IH I); [now left|now (right; right)].
Qed.
Lemma denotes_abs_functional : forall s n m, denotes_abs s n -> denotes_abs s m -> n = m.
Proof.
  assert (N1 : NoDup (map fst [(87%N, WEEK); (68%N, DAY)])) by (repeat constructor; cbn; intuition discriminate).
  assert (N2 : NoDup (map fst [(72%N, HOUR); (77%N, MINUTE); (83%N, SECOND)]))
    by (repeat constructor; cbn; intuition discriminate).
  assert (F1 : Forall (fun d => num_char (fst d) = false) [(87%N, WEEK); (68%N, DAY)]) by now repeat constructor.
  assert (F2 : Forall (fun d => num_char (fst d) = false) [(72%N, HOUR); (77%N, MINUTE); (83%N, SECOND)])
    by now repeat constructor.
  assert (T : forall s n, amounts [(87%N, WEEK); (68%N, DAY)] s n -> ~ In 84%N s).
  { intros s n H I. destruct (amounts_chars _ _ _ _ H I) as [J|J]; [discriminate|]. cbn in J. intuition discriminate. }
  intros w n m H1 H2. remember w as w' eqn:E in H2.
  destruct H1 as [s n _ A|s t n x A _ B]; destruct H2 as [s' m' _ A'|s' t' n' x' A' _ B'].
  - apply app_inv_head in E as ->. exact (amounts_functional _ _ _ _ N1 F1 A A').
  - apply app_inv_head in E as <-. apply T in A. destruct A. apply in_or_app. right. now left.
  - apply app_inv_head in E as ->. apply T in A'. destruct A'. apply in_or_app. right. now left.
  - apply app_inv_head in E. change (lit "T") with [84%N] in E. cbn [app] in E.
    destruct (split_first (fun c => negb (c =? 84)%N) s' s 84 84 t' t) as (-> & _ & ->); try easy.
    + apply forallb_forall. intros c I. destruct (c =? 84)%N eqn:K; [|easy]. apply N.eqb_eq in K as ->. now apply T in A'.
    + apply forallb_forall. intros c I. destruct (c =? 84)%N eqn:K; [|easy]. apply N.eqb_eq in K as ->. now apply T in A.
    + f_equal; [exact (amounts_functional _ _ _ _ N1 F1 A A')|exact (amounts_functional _ _ _ _ N2 F2 B B')].
Qed.
Lemma denotes_functional : forall s x y, denotes s x -> denotes s y -> x = y.
Proof.
  assert (P : forall t n, ~ denotes_abs (DASH :: t) n) by (intros t n H; inversion H).
  intros s x y H1 H2. destruct H1 as [s n A|s n A]; inversion H2 as [s' m B|s' m B]; subst.
  - now rewrite (denotes_abs_functional _ _ _ A B).
  - now apply P in A.
  - now apply P in B.
  - now rewrite (denotes_abs_functional _ _ _ A B).
Qed.

(** ** Reading durations back *)

Lemma dec_val_app : forall a b, dec_val (a ++ b) = (dec_val a * 10 ^ N.of_nat (length b) + dec_val b)%N.
Proof.
  intros a b. revert a. induction b as [|c b IH] using rev_ind; intros a.
  - rewrite app_nil_r. cbn. lia.
  - rewrite app_assoc, !dec_val_snoc, IH, app_length. cbn [length].
    replace (N.of_nat (length b + 1)) with (N.succ (N.of_nat (length b))) by lia. rewrite N.pow_succ_r'. lia.
Qed.
Lemma dec_val_bound : forall s, forallb is_digit s = true -> (dec_val s < 10 ^ N.of_nat (length s))%N.
Proof.
  induction s as [|c s IH] using rev_ind; intros H; [easy|].
  rewrite forallb_app in H. cbn [forallb] in H. apply andb_true_iff in H as [H1 H2].
  rewrite andb_true_r in H2. apply is_digit_range in H2. specialize (IH H1).
  rewrite dec_val_snoc, app_length. cbn [length].
  replace (N.of_nat (length s + 1)) with (N.succ (N.of_nat (length s))) by lia. rewrite N.pow_succ_r'. lia.
Qed.
Lemma frac_millis_spec : forall f x, forallb is_digit f = true ->
  (dec_val f * 10 ^ 9 = x * 10 ^ N.of_nat (length f))%N -> (frac_millis f = x / 1000000)%N.
Proof.
  intros f x D E. unfold frac_millis. destruct (Nat.le_gt_cases 3 (length f)) as [L|L].
  - rewrite firstn_app. replace (3 - length f)%nat with 0%nat by lia. rewrite firstn_O, app_nil_r.
    rewrite <- (firstn_skipn 3 f) in E at 1. rewrite dec_val_app, skipn_length in E.
    assert (B : (dec_val (skipn 3 f) < 10 ^ N.of_nat (length f - 3))%N).
    { rewrite <- (skipn_length 3 f). apply dec_val_bound. rewrite <- (firstn_skipn 3 f), forallb_app in D.
      now apply andb_true_iff in D. }
    replace (N.of_nat (length f)) with (3 + N.of_nat (length f - 3))%N in E by lia.
    rewrite N.pow_add_r in E. set (p := (10 ^ N.of_nat (length f - 3))%N) in *.
    set (a := dec_val (firstn 3 f)) in *. set (b := dec_val (skipn 3 f)) in *.
    assert (p <> 0)%N by (unfold p; now apply N.pow_nonzero).
    change (10 ^ 9)%N with 1000000000%N in E. change (10 ^ 3)%N with 1000%N in E.
    assert (E' : (x * p = a * p * 1000000 + b * 1000000)%N) by lia.
    apply (N.div_unique _ _ _ (x - a * 1000000)).
    + assert (x * p < (a * 1000000 + 1000000) * p)%N by nia. nia.
    + assert (a * 1000000 * p <= x * p)%N by nia. assert (a * 1000000 <= x)%N by nia. lia.
  - assert (C : (length f = 0 \/ length f = 1 \/ length f = 2)%nat) by lia.
    destruct f as [|c1 [|c2 [|c3 f]]]; try (cbn in C; lia); cbn [app firstn length N.of_nat] in *.
    + change (dec_val [48; 48; 48]%N) with 0%N. change (dec_val []) with 0%N in E. cbn in E.
      replace x with 0%N by lia. easy.
    + change [c1; 48; 48]%N with ([c1] ++ [48; 48]%N). rewrite dec_val_app. change (dec_val [48; 48]%N) with 0%N.
      change (10 ^ N.of_nat (length [48; 48]%N))%N with 100%N. change (10 ^ 9)%N with 1000000000%N in E.
      change (10 ^ N.of_nat 1)%N with 10%N in E. apply (N.div_unique _ _ _ 0); lia.
    + change [c1; c2; 48]%N with ([c1; c2] ++ [48]%N). rewrite dec_val_app. change (dec_val [48]%N) with 0%N.
      change (10 ^ N.of_nat (length [48]%N))%N with 10%N. change (10 ^ 9)%N with 1000000000%N in E.
      change (10 ^ N.of_nat 2)%N with 100%N in E. apply (N.div_unique _ _ _ 0); lia.
Qed.

Section Iso.
  Context {I : Iso8601}.
  Lemma iso_parse_text : forall d, (0 <= d < 4294967296 * 1000000000)%Z ->
    iso_parse (dur_text d) = Some (Z.to_N (d - d mod 1000000)).
  Proof.
    intros d H. unfold dur_text. replace (d <? 0)%Z with false by lia. cbn [app].
    set (a := Z.abs_N d). unfold iso_parse. rewrite starts_with_app. unfold iso_simple.
    destruct (a =? 0)%N eqn:E.
    { replace d with 0%Z by lia. reflexivity. }
    set (fr := if (a mod GIGA =? 0)%N then [] else 46%N :: frac_go 8 9 (a mod GIGA)).
    replace (str_eqb (lit "P" ++ lit "T" ++ dec (a / GIGA) ++ fr ++ lit "S") (lit "P0D")) with false by easy.
    change (lit "P" ++ lit "T" ++ dec (a / GIGA) ++ fr ++ lit "S") with (lit "PT" ++ dec (a / GIGA) ++ fr ++ lit "S").
    rewrite starts_with_app. change (skipn 2 (lit "PT" ++ dec (a / GIGA) ++ fr ++ lit "S")) with (dec (a / GIGA) ++ fr ++ lit "S").
    pose proof (dec_spec (a / GIGA)) as (D1 & D2 & D3 & _).
    rewrite span_digits_all; [|easy|unfold fr; now destruct (a mod GIGA =? 0)%N].
    destruct (dec (a / GIGA)) as [|c0 ds] eqn:Ed; [easy|]. rewrite D3.
    pose proof (N.div_mod a GIGA ltac:(easy)) as Dm. pose proof (N.mod_lt a GIGA ltac:(easy)) as Lt.
    assert (Q : (a / GIGA <= U32_MAX)%N).
    { assert (a < 4294967296 * GIGA)%N by (unfold GIGA; lia). apply N.lt_succ_r.
      apply N.div_lt_upper_bound; [easy|]. unfold U32_MAX. lia. }
    replace (a / GIGA <=? U32_MAX)%N with true by lia. unfold fr. destruct (a mod GIGA =? 0)%N eqn:F.
    - change (str_eqb ([] ++ lit "S") (lit "S")) with true. cbv iota. f_equal.
      apply N.eqb_eq in F. unfold GIGA in *. lia.
    - destruct (frac_go_spec 8 9 (a mod GIGA)) as (k & m & E1 & E2 & E3 & E4);
        [lia|change (10 ^ N.of_nat 9)%N with GIGA; lia|]. rewrite E1.
      replace (str_eqb ((46%N :: pad k m) ++ lit "S") (lit "S")) with false by easy.
      cbn [app]. rewrite N.eqb_refl. destruct (pad_spec k m ltac:(lia) E3) as (P1 & P2 & P3).
      rewrite span_digits_all by easy. destruct (pad k m) as [|c1 f] eqn:Ep; [cbn in P1; lia|].
      rewrite str_eqb_refl. f_equal. rewrite (frac_millis_spec (c1 :: f) (a mod GIGA)%N P2).
      + rewrite <- !Z2N.inj_iff || idtac. unfold GIGA in *.
        pose proof (N.div_mod (a mod 1000000000) 1000000 ltac:(easy)).
        pose proof (N.mod_lt (a mod 1000000000) 1000000 ltac:(easy)).
        assert ((d mod 1000000)%Z = Z.of_N ((a mod 1000000000) mod 1000000)).
        { symmetry. apply (Z.mod_unique_pos d 1000000 (Z.of_N (a / 1000000000 * 1000 + a mod 1000000000 / 1000000))); lia. }
        lia.
      + rewrite P1, P3. rewrite <- E4. rewrite <- N.mul_assoc, <- N.pow_add_r.
        replace (N.of_nat (9 - k) + N.of_nat k)%N with 9%N by lia. reflexivity.
  Qed.
  Lemma iso_parse_neg : forall d, (d < 0)%Z -> iso_parse (dur_text d) = None.
  Proof. intros d H. unfold dur_text. now replace (d <? 0)%Z with true by lia. Qed.
  Lemma dur_from_std_small : forall n, (n < 4294967296 * 1000000000)%N -> dur_from_std n = Some (Z.of_N n).
  Proof. intros n H. unfold dur_from_std, I64_MAX. now replace (n <=? _)%N with true by lia. Qed.
  Lemma parse_duration_text : forall d, (0 <= d < 4294967296 * 1000000000)%Z ->
    parse_duration (dur_text d) = Some (d - d mod 1000000)%Z.
  Proof.
    intros d H. unfold parse_duration. rewrite iso_parse_text by easy.
    pose proof (Z.mod_pos_bound d 1000000 ltac:(lia)). pose proof (Z.mod_le d 1000000 ltac:(lia) ltac:(lia)).
    rewrite dur_from_std_small by lia. f_equal. lia.
  Qed.
  Lemma parse_duration_neg : forall d, (d < 0)%Z -> parse_duration (dur_text d) = None.
  Proof. intros d H. unfold parse_duration. now rewrite iso_parse_neg. Qed.

  Lemma ttl_values : forall c d, lacks "REFRESH-INTERVAL" (c_props c) -> lacks "X-PUBLISHED-TTL" (c_props c) ->
    cal_property_value (cal_ttl c d) (lit "REFRESH-INTERVAL") = Some (dur_text d)
    /\ cal_property_value (cal_ttl c d) (lit "X-PUBLISHED-TTL") = Some (dur_text d).
  Proof.
    intros c d H1 H2. unfold cal_property_value, cal_ttl, cal_append_property. cbn [c_props].
    apply lacks_find in H1, H2. rewrite <- app_assoc, !find_app, H1, H2. now split.
  Qed.
  Lemma ttl_read : forall c d, lacks "REFRESH-INTERVAL" (c_props c) -> (0 <= d < 4294967296 * 1000000000)%Z ->
    cal_get_ttl (cal_ttl c d) = Some (d - d mod 1000000)%Z.
  Proof.
    intros c d H1 H. unfold cal_get_ttl.
    assert (V : cal_property_value (cal_ttl c d) (lit "REFRESH-INTERVAL") = Some (dur_text d)).
    { unfold cal_property_value, cal_ttl, cal_append_property. cbn [c_props].
      apply lacks_find in H1. now rewrite <- app_assoc, !find_app, H1. }
    rewrite V, iso_parse_text by easy. cbn [or_else].
    pose proof (Z.mod_pos_bound d 1000000 ltac:(lia)). pose proof (Z.mod_le d 1000000 ltac:(lia) ltac:(lia)).
    rewrite dur_from_std_small by lia. f_equal. lia.
  Qed.
  Lemma ttl_neg : forall c d, lacks "REFRESH-INTERVAL" (c_props c) -> lacks "X-PUBLISHED-TTL" (c_props c) ->
    (d < 0)%Z -> cal_get_ttl (cal_ttl c d) = None.
  Proof.
    intros c d H1 H2 H. unfold cal_get_ttl. destruct (ttl_values c d H1 H2) as [-> ->].
    now rewrite iso_parse_neg.
  Qed.
  Lemma ttl_round : forall c d, lacks "REFRESH-INTERVAL" (c_props c) -> readable d ->
    cal_get_ttl (cal_ttl c d) = Some d.
  Proof. intros c d H (A & B & C). rewrite ttl_read by (auto; lia). f_equal. lia. Qed.

  (** ** Triggers *)

  Definition read_trigger (t : trigger) : option trigger :=
    match t with
    | TDuration d r => if (d <? 0)%Z then None else Some (TDuration (d - d mod 1000000)%Z r)
    | TDateTime (Floating d) => Some (TDateTime (Floating (trunc_dt d)))
    | TDateTime (Utc d) => Some (TDateTime (Utc (trunc_dt d)))
    | TDateTime (WithTimezone d _) => Some (TDateTime (Floating (trunc_dt d)))
    end.
  Lemma trigger_read : forall t,
    match t with
    | TDuration d _ => (d < 4294967296 * 1000000000)%Z
    | TDateTime c => real_dt (dt_of c) /\ four_digits (date_of (dt_of c))
    end -> trigger_from_property (trigger_to_property t) = read_trigger t.
  Proof.
    intros [d [r|]|[d|d|d z]] H; cbn [dt_of] in H; unfold trigger_from_property, trigger_to_property, read_trigger.
    - cbn [append_parameter prop_new p_key p_val p_params related_to_param fst snd hm_insert].
      rewrite str_eqb_refl.
      change (map_get (lit "VALUE") [(lit "RELATED", match r with RStart => lit "START" | REnd => lit "END" end)]) with (@None str).
      cbv iota. destruct (d <? 0)%Z eqn:E.
      + rewrite parse_duration_neg by lia. easy.
      + rewrite parse_duration_text by lia. now destruct r.
    - cbn [prop_new p_key p_val p_params map_get]. rewrite str_eqb_refl. destruct (d <? 0)%Z eqn:E.
      + rewrite parse_duration_neg by lia. easy.
      + now rewrite parse_duration_text by lia.
    - cbn [cal_dt_to_property append_parameter prop_new p_key p_val p_params fst snd hm_insert map_get].
      rewrite !str_eqb_refl. unfold cal_dt_from_str, parse_utc_date_time, parse_naive_date_time.
      rewrite parse_dt_z_fmt_naive, parse_dt_fmt by easy. easy.
    - cbn [cal_dt_to_property append_parameter prop_new p_key p_val p_params fst snd hm_insert map_get].
      rewrite !str_eqb_refl. unfold cal_dt_from_str, parse_utc_date_time. now rewrite parse_dt_z_fmt.
    - cbn [cal_dt_to_property append_parameter prop_new p_key p_val p_params fst snd hm_insert].
      rewrite str_eqb_refl.
      change (map_get (lit "VALUE") (if str_eqb (lit "VALUE") (lit "TZID") then [(lit "TZID", lit "DATE-TIME")] else [(lit "TZID", z); (lit "VALUE", lit "DATE-TIME")]))
        with (Some (lit "DATE-TIME")). cbv iota. rewrite str_eqb_refl.
      unfold cal_dt_from_str, parse_utc_date_time, parse_naive_date_time.
      now rewrite parse_dt_z_fmt_naive, parse_dt_fmt by easy.
  Qed.
End Iso.

(** ** Alarms *)

Definition call_of (a : alarm_call) : list call :=
  match a with
  | ADurationRepeat d n => [KAppend (duration_to_property d); KAppend (repeat_to_property n)]
  | AOther c => [c]
  end.
Definition calls_of_start (a : alarm_start) : list call :=
  match a with
  | SAudio t => [KAppend (action_to_property Audio); KAppend (trigger_to_property t)]
  | SDisplay desc t => [KAppend (action_to_property Display); KAppend (trigger_to_property t); KAdd (lit "DESCRIPTION") desc]
  end.
Lemma run_calls_app : forall a b i, run_calls (a ++ b) i = run_calls b (run_calls a i).
Proof. intros. apply fold_left_app. Qed.
Lemma alarm_calls : forall l i, fold_left do_alarm_call l i = run_calls (flat_map call_of l) i.
Proof.
  induction l as [|a l IH]; intros i; [easy|]. cbn [fold_left flat_map]. rewrite run_calls_app, IH. now destruct a.
Qed.
Lemma run_alarm_calls : forall a l, run_alarm a l = run_calls (calls_of_start a ++ flat_map call_of l) inner_new.
Proof. intros. rewrite run_calls_app. unfold run_alarm. rewrite alarm_calls. now destruct a. Qed.
Lemma trigger_to_prop : forall t, trigger_to_property t = trigger_prop t.
Proof. now intros [d [[]|]|[]]. Qed.

Lemma last_with_app : forall k a b, last_with k (a ++ b)
  = match last_with k b with Some p => Some p | None => last_with k a end.
Proof. intros. unfold last_with. rewrite rev_app_distr. apply find_app. Qed.
Lemma last_with_none : forall k l, (forall p, In p l -> p_key p <> k) -> last_with k l = None.
Proof.
  intros k l H. unfold last_with. destruct (find _ (rev l)) as [p|] eqn:E; [|easy].
  apply find_some in E as [I E]. apply str_eqb_eq in E. now apply in_rev, H in I.
Qed.
Lemma alarm_last : forall l, Forall alarm_call_ok l ->
  last_with (lit "ACTION") (flat_map sets (flat_map call_of l)) = None
  /\ last_with (lit "TRIGGER") (flat_map sets (flat_map call_of l)) = None
  /\ last_with (lit "DURATION") (flat_map sets (flat_map call_of l))
     = option_map (fun r => text_prop "DURATION" (dur_text (fst r))) (last_repeat l)
  /\ last_with (lit "REPEAT") (flat_map sets (flat_map call_of l))
     = option_map (fun r => text_prop "REPEAT" (dec (snd r))) (last_repeat l).
Proof.
  induction 1 as [|a l H F IH]; [easy|]. destruct IH as (I1 & I2 & I3 & I4). cbn [flat_map].
  rewrite flat_map_app, !last_with_app, I1, I2, I3, I4. destruct a as [d n|c]; cbn [call_of flat_map last_repeat].
  - destruct (last_repeat l); easy.
  - rewrite app_nil_r. cbn in H.
    rewrite !last_with_none; [now destruct (last_repeat l)|..]; intros p I;
      (apply H; [apply in_or_app; now left|]); cbn; tauto.
Qed.
Lemma alarm_props : forall a l, Forall alarm_call_ok l ->
  let i := run_alarm a l in
  map_get (lit "ACTION") (i_props i) = Some (text_prop "ACTION" (lit (start_action a)))
  /\ map_get (lit "TRIGGER") (i_props i) = Some (trigger_prop (start_trigger a))
  /\ map_get (lit "DURATION") (i_props i)
     = option_map (fun r => text_prop "DURATION" (dur_text (fst r))) (last_repeat l)
  /\ map_get (lit "REPEAT") (i_props i)
     = option_map (fun r => text_prop "REPEAT" (dec (snd r))) (last_repeat l).
Proof.
  intros a l H i. unfold i. rewrite run_alarm_calls. rewrite !(proj1 (last_write_wins _ _)), !flat_map_app, !last_with_app.
  destruct (alarm_last l H) as (-> & -> & -> & ->).
  destruct a as [t|desc t]; cbn [calls_of_start flat_map app sets start_trigger start_action]; rewrite trigger_to_prop.
  all: assert (K : p_key (trigger_prop t) = lit "TRIGGER") by (now destruct t as [d [[]|]|[]]).
  all: unfold last_with; cbn [rev app find p_key]; rewrite K; repeat split; now destruct (last_repeat l).
Qed.
Lemma alarm_description : forall desc t l, Forall alarm_call_ok l ->
  map_get (lit "DESCRIPTION") (i_props (run_alarm (SDisplay desc t) l))
  = match last_with (lit "DESCRIPTION") (flat_map sets (flat_map call_of l)) with
    | Some p => Some p
    | None => Some (text_prop "DESCRIPTION" desc)
    end.
Proof.
  intros desc t l H. rewrite run_alarm_calls. now rewrite (proj1 (last_write_wins _ _)), flat_map_app, last_with_app.
Qed.
Lemma alarm_multi : forall a l k, Forall alarm_call_ok l -> In k four_keys ->
  map_get (lit k) (i_multi (run_alarm a l)) = None.
Proof.
  intros a l k H I. rewrite run_alarm_calls, multi_order.
  assert (E : filter (fun q => str_eqb (p_key q) (lit k)) (flat_map multis (calls_of_start a ++ flat_map call_of l)) = []).
  { rewrite flat_map_app, filter_app. assert (flat_map multis (calls_of_start a) = []) as -> by now destruct a.
    cbn [filter app]. induction H as [|b l H _ IH]; [easy|]. cbn [flat_map]. rewrite flat_map_app, filter_app, IH, app_nil_r.
    destruct b as [d n|c]; cbn [call_of flat_map]; [easy|]. rewrite app_nil_r. cbn in H.
    assert (A : forall p, In p (multis c) -> p_key p <> lit k) by (intros p Ip; apply H; [apply in_or_app; now right|easy]).
    clear - A. induction (multis c) as [|p m IH]; [easy|]. cbn [filter].
    assert (str_eqb (p_key p) (lit k) = false) as -> by (apply str_eqb_neq, A; now left).
    apply IH. intros q Iq. apply A. now right. }
  now rewrite E.
Qed.
Lemma made_calls : forall l i, made i -> Forall (fun o => made (snd o)) (flat_map subs l) -> made (run_calls l i).
Proof.
  induction l as [|c l IH]; intros i M F; [easy|]. cbn [flat_map] in F. apply Forall_app in F as [F1 F2].
  cbn. apply IH; [|easy]. now apply made_call.
Qed.
Lemma alarm_made : forall a l, Forall (fun o => made (snd o)) (flat_map alarm_subs l) -> made (run_alarm a l).
Proof.
  intros a l F. rewrite run_alarm_calls. apply made_calls; [apply made_new|]. rewrite flat_map_app.
  assert (flat_map subs (calls_of_start a) = []) as -> by now destruct a. cbn [app].
  assert (E : flat_map subs (flat_map call_of l) = flat_map alarm_subs l).
  { clear. induction l as [|b l IH]; [easy|]. cbn [flat_map]. rewrite flat_map_app, IH. destruct b; [easy|].
    cbn [call_of flat_map alarm_subs]. now rewrite app_nil_r. }
  now rewrite E.
Qed.
Lemma arranged_count : forall e kind i t k, well_made i -> arranged e kind i t ->
  lit k <> lit "DTSTAMP" -> lit k <> lit "UID" -> map_get (lit k) (i_multi i) = None ->
  count_key k (t_props t) = match map_get (lit k) (i_props i) with Some _ => 1 | None => 0 end.
Proof.
  intros e kind i t k W A K1 K2 N.
  inversion A as [k' i' stamp qs u gs cs' A1 A2 A3 A4 A5 A6 A7]; subst. inversion W as [? [B1 B2 B3 B4] D]; subst.
  cbn [t_props]. rewrite !count_key_app.
  assert (count_key k stamp = 0) as ->.
  { apply count_key_0. intros p I. destruct (map_get _ (i_props i)); [now subst|]. destruct A1 as [m ->].
    destruct I as [<-|[]]. cbn [utc_prop text_prop p_key]. congruence. }
  assert (count_key k u = 0) as ->.
  { apply count_key_0. intros p I. destruct (map_get (lit "UID") (i_props i)); [now subst|]. destruct A4 as [m ->].
    destruct I as [<-|[]]. cbn [text_prop p_key]. congruence. }
  assert (count_key k (flat_map snd gs) = 0) as ->.
  { apply count_key_0. intros p I E. apply in_flat_map in I as ([k2 g] & I & J). cbn [snd] in J.
    apply A6 in I. pose proof (map_get_in _ _ _ _ I) as I2. rewrite Forall_forall in B4.
    specialize (B4 _ I2). cbn in B4. destruct B4 as [_ B4]. rewrite Forall_forall in B4.
    apply B4 in J. congruence. }
  rewrite !Nat.add_0_r, Nat.add_0_l.
  destruct (map_get (lit k) (i_props i)) as [p|] eqn:E.
  - pose proof (map_get_in _ _ _ _ E) as I2. rewrite Forall_forall in B2. specialize (B2 _ I2). cbn in B2.
    apply (count_key_asc k qs p A2); [|easy]. apply A3. now rewrite B2.
  - apply count_key_0. intros p I F. apply A3 in I. congruence.
Qed.
Lemma alarm_text : forall (U : Unicode) e a l n s n', Forall alarm_call_ok l ->
  Forall (fun o => made (snd o)) (flat_map alarm_subs l) -> clock_ok e ->
  inner_write e (lit "VALARM") (run_alarm a l) n = Ret (s, n') ->
  exists t, text_of t s /\ t_name t = lit "VALARM"
    /\ count_key "ACTION" (t_props t) = 1 /\ count_key "TRIGGER" (t_props t) = 1
    /\ count_key "DURATION" (t_props t) = count_key "REPEAT" (t_props t)
    /\ count_key "REPEAT" (t_props t) = match last_repeat l with Some _ => 1 | None => 0 end.
Proof.
  intros U e a l n s n' H M C W. pose proof (alarm_made a l M) as Md.
  destruct (component_text U e _ _ n s n' Md C W) as (t & A & T). exists t. split; [easy|].
  assert (Q : forall k, In k four_keys -> lit k <> lit "DTSTAMP" -> lit k <> lit "UID" ->
    count_key k (t_props t) = match map_get (lit k) (i_props (run_alarm a l)) with Some _ => 1 | None => 0 end).
  { intros k I K1 K2. eapply arranged_count; eauto; [now apply made_well|now apply alarm_multi]. }
  destruct (alarm_props a l H) as (P1 & P2 & P3 & P4). cbn zeta in P1, P2, P3, P4.
  split; [now inversion A|].
  rewrite (Q "ACTION"%string), (Q "TRIGGER"%string), (Q "DURATION"%string), (Q "REPEAT"%string), P1, P2, P3, P4;
    try easy; try (cbn; tauto).
  now destruct (last_repeat l).
Qed.
Lemma trigger_unchanged : forall (I : Iso8601),
  (forall d, readable d ->
     trigger_from_property (trigger_to_property (after_start d)) = Some (after_start d)
     /\ trigger_from_property (trigger_to_property (after_end d)) = Some (after_end d)
     /\ trigger_from_property (trigger_to_property (TDuration d None)) = Some (TDuration d None))
  /\ (forall d, real_dt d -> four_digits (date_of d) -> whole_seconds (time_of d) ->
     trigger_from_property (trigger_to_property (TDateTime (Utc d))) = Some (TDateTime (Utc d))
     /\ trigger_from_property (trigger_to_property (TDateTime (Floating d))) = Some (TDateTime (Floating d))).
Proof.
  intros I. split.
  - intros d (A & B & C). unfold after_start, after_end. rewrite !trigger_read by easy. unfold read_trigger.
    replace (d <? 0)%Z with false by lia. now rewrite B, Z.sub_0_r.
  - intros d R F W. rewrite !trigger_read by easy. unfold read_trigger. now rewrite (proj2 (trunc_dt_whole d R) W).
Qed.
