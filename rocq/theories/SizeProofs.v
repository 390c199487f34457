(** How long the text is, and how long folding takes. *)
From Verif Require Import Str StrFacts Spec Fold FoldCost Text ValueTypes Property Chrono DateTime Component Calendar Nom Parser
  SpecBuild SpecDate SpecTree SpecDoc SpecRound SpecText SpecFold SpecSize FoldProofs TreeProofs WrittenProofs CutProofs.
From Coq Require Import ZifyBool ZifyNat ZifyN.

(** ** Pieces *)
Lemma octets_app : forall a b, octets (a ++ b) = octets a + octets b.
Proof. intros a b. rewrite !octets_blen. apply blen_app. Qed.
Lemma join_size : forall ps last, octets (join_fold ps last) = octets (concat ps ++ last) + 3 * length ps.
Proof.
  induction ps as [|p ps IH]; intros last; cbn [join_fold concat length app]; [lia|].
  replace (p ++ CR :: LF :: SP :: join_fold ps last) with (p ++ [CR; LF; SP] ++ join_fold ps last) by easy.
  rewrite <- app_assoc. rewrite (octets_app p), (octets_app p), (octets_app [CR; LF; SP]), IH. change (octets [CR; LF; SP]) with 3. lia.
Qed.
Lemma lands_le : forall l p q, lands l p q -> q <= p.
Proof. intros l p q H. induction H; lia. Qed.
Lemma cut_place_le : forall l p q, cut_place l p q -> q <= p.
Proof. intros l p q [[_ H]|[_ H]]; apply lands_le in H; lia. Qed.
Lemma cuts_cat : forall l a n ps last, cuts l a n ps last -> l = a ++ concat ps ++ last.
Proof.
  intros l a n ps last H. induction H as [a n r E L|a n p r ps last E L C H IH]; [easy|]. cbn [concat]. now rewrite <- !app_assoc in *.
Qed.
Lemma cuts_last : forall l a n ps last, cuts l a n ps last -> n <= octets a + 75 -> ps <> [] -> last <> [].
Proof.
  intros l a n ps last H. induction H as [a n r E L|a n p r ps last E L C H IH]; intros B P; [easy|].
  destruct ps as [|q ps].
  - inversion H as [? ? ? E2 L2|]; subst. rewrite <- app_assoc in E2. do 2 apply app_inv_head in E2. subst. apply cut_place_le in C.
    rewrite octets_app in *. intros ->. cbn in L. lia.
  - apply IH; [lia|easy].
Qed.
Lemma piece_size : forall ps, Forall (fun p : str => p <> []) ps -> length ps <= octets (concat ps).
Proof.
  intros ps F. induction F as [|p ps N _ IH]; cbn [concat length]; [lia|]. rewrite octets_app.
  assert (1 <= octets p); [|lia]. destruct p as [|c p]; [easy|]. rewrite octets_blen. cbn [blen]. pose proof (utf8_len_bounds c). lia.
Qed.
Lemma cuts_full : forall l a n ps last, cuts l a n ps last -> n = octets a + 74 -> Forall (fun p => p <> []) ps.
Proof.
  intros l a n ps last H. induction H as [a n r E L|a n p r ps last E L C H IH]; intros B; [constructor|].
  constructor; [|now apply IH]. intros ->. subst n. rewrite app_nil_r in *.
  assert (K : cuts l a (octets a + 74) ([] :: ps) last) by (apply (ct_piece l a _ [] r ps last); rewrite ?app_nil_r; easy).
  destruct (cuts_one _ _ _ _ _ H _ _ K) as [Q _]. apply (f_equal (@length str)) in Q. cbn in Q. lia.
Qed.
Lemma fold_pieces_few : forall l ps last, cuts l [] 75 ps last -> length ps <= octets l.
Proof.
  intros l ps last C. pose proof (cuts_last _ _ _ _ _ C) as N. pose proof (cuts_cat _ _ _ _ _ C) as E. cbn [app] in E.
  inversion C as [|? ? p r ps' last' E2 L P H]; subst ps; [cbn; lia|]. subst last'.
  specialize (N ltac:(cbn; lia) ltac:(easy)). apply cuts_full in H; [|easy]. rewrite E. cbn [concat length]. rewrite !octets_app.
  apply piece_size in H. assert (1 <= octets last); [|lia]. destruct last as [|c b]; [easy|]. rewrite octets_blen. cbn [blen]. pose proof (utf8_len_bounds c). lia.
Qed.
Lemma cut_size : forall l s, cut_line l s -> exists n, octets s = octets l + 3 * n + 2 /\ n <= octets l.
Proof.
  intros l s (ps & last & C & ->). exists (length ps). rewrite octets_app, join_size. pose proof (cuts_cat _ _ _ _ _ C) as E. cbn [app] in E.
  rewrite <- E. change (octets [CR; LF]) with 2. split; [lia|]. now apply (fold_pieces_few l ps last).
Qed.
Lemma ascii_few : forall n s ps last, cut_ascii n s ps last -> n = 74 \/ n = 75 -> 73 * length ps <= length s.
Proof.
  intros n s ps last H. induction H as [n s L|n p r ps last L P W H IH|n p c r ps last L P W H IH]; intros B; cbn [length].
  - lia.
  - rewrite app_length. specialize (IH ltac:(now left)). lia.
  - rewrite app_length. specialize (IH ltac:(now left)). cbn [length] in *. lia.
Qed.
Lemma ascii_octets : forall l, Forall (fun c => non_ascii c = false) l -> octets l = length l.
Proof.
  intros l F. rewrite octets_blen. induction F as [|c l A _ IH]; [easy|]. cbn [blen length]. rewrite IH. unfold non_ascii in A. unfold utf8_len.
  replace (c <? 128)%N with true by lia. easy.
Qed.

(** ** Lines *)
Lemma char_size : forall c w, char_written c w -> octets [c] <= octets w <= 2 * octets [c].
Proof.
  intros c w H. inversion H as [c' N|c' I|]; subst.
  - lia.
  - change ([BSL; c]) with ([BSL] ++ [c]). rewrite octets_app. change (octets [BSL]) with 1. rewrite octets_blen. cbn [blen]. pose proof (utf8_len_bounds c). lia.
  - vm_compute. lia.
Qed.
Lemma text_size : forall v w, text_written v w -> octets v <= octets w <= 2 * octets v.
Proof.
  intros v w (ss & F & ->). induction F as [|c a v ss H _ IH]; [cbn; lia|]. cbn [concat]. change (c :: v) with ([c] ++ v). rewrite !octets_app.
  apply char_size in H. lia.
Qed.
Lemma param_size : forall q t, param_written q t -> let d := octets (fst q) + octets (snd q) in d + 2 <= octets t <= d + 4.
Proof.
  intros q t H. inversion H as [k v A B|k v A]; subst; cbn [fst snd].
  - replace (SEMI :: k ++ EQUALS :: v) with ([SEMI] ++ k ++ [EQUALS] ++ v) by easy. rewrite !octets_app. change (octets [SEMI]) with 1. change (octets [EQUALS]) with 1. lia.
  - replace (SEMI :: k ++ EQUALS :: DQ :: v ++ [DQ]) with ([SEMI] ++ k ++ [EQUALS] ++ [DQ] ++ v ++ [DQ]) by easy. rewrite !octets_app.
    change (octets [SEMI]) with 1. change (octets [EQUALS]) with 1. change (octets [DQ]) with 1. lia.
Qed.
Lemma line_size : forall {U : Unicode} p l, line_written p l -> prop_data p + prop_items p <= octets l <= 2 * prop_data p + 4 * prop_items p.
Proof.
  intros U p l (ts & w & -> & F & T & O). unfold prop_data, prop_items.
  replace (p_key p ++ concat ts ++ COLON :: w) with (p_key p ++ concat ts ++ [COLON] ++ w) by easy. rewrite !octets_app. change (octets [COLON]) with 1.
  assert (V : octets (p_val p) <= octets w <= 2 * octets (p_val p)).
  { destruct (is_text_dec p) as [D|D]; [now apply text_size, T|]. rewrite (O D). lia. }
  assert (P : list_sum (map (fun q => octets (fst q) + octets (snd q)) (p_params p)) + 2 * length (p_params p) <= octets (concat ts)
    <= list_sum (map (fun q => octets (fst q) + octets (snd q)) (p_params p)) + 4 * length (p_params p)); [|lia].
  clear - F. induction F as [|q t qs ts H _ IH]; [cbn; lia|]. cbn [map list_sum fold_right concat length]. rewrite octets_app. apply param_size in H.
  fold (list_sum (map (fun q => octets (fst q) + octets (snd q)) qs)). cbn zeta in H. lia.
Qed.
Lemma prop_size : forall {U : Unicode} p s, prop_write p = Ret s -> prop_data p + prop_items p <= octets s <= 8 * prop_data p + 18 * prop_items p.
Proof.
  intros U p s W. apply prop_cut in W as (l & L & C). apply line_size in L. apply cut_size in C as (n & E & B). unfold prop_items in *. lia.
Qed.

(** ** Components *)
Lemma lines_size : forall {U : Unicode} ps s, props_write ps = Ret s ->
  list_sum (map prop_data ps) + list_sum (map prop_items ps) <= octets s
  /\ octets s <= 8 * list_sum (map prop_data ps) + 18 * list_sum (map prop_items ps).
Proof.
  intros U. induction ps as [|p ps IH]; intros s W; cbn [props_write] in W.
  - injection W as <-. cbn. lia.
  - destruct (prop_write p) as [a| |] eqn:A; cbn [obind] in W; try easy. destruct (props_write ps) as [b| |]; cbn [obind] in W; try easy.
    injection W as <-. apply prop_size in A. specialize (IH b eq_refl). rewrite octets_app. cbn [map list_sum fold_right] in *. unfold list_sum in *. lia.
Qed.
Lemma map_sum : forall {A B} (f : B -> nat) (g : A -> list B) l, list_sum (map f (concat (map g l))) = list_sum (map (fun x => list_sum (map f (g x))) l).
Proof. induction l as [|x l IH]; [easy|]. cbn [map concat]. rewrite map_app, list_sum_app, IH. easy. Qed.
Lemma inner_data_eq : forall ps ms cs, inner_data (mk_inner ps ms cs)
  = list_sum (map prop_data (map snd ps)) + list_sum (map prop_data (concat (map snd ms))) + list_sum (map (fun o => octets (fst o) + inner_data (snd o)) cs).
Proof. intros. rewrite map_sum, map_map. reflexivity. Qed.
Lemma inner_items_eq : forall ps ms cs, inner_items (mk_inner ps ms cs)
  = 1 + list_sum (map prop_items (map snd ps)) + list_sum (map prop_items (concat (map snd ms))) + list_sum (map (fun o => inner_items (snd o)) cs).
Proof. intros. rewrite map_sum, map_map. reflexivity. Qed.
Lemma ret_inj : forall {A} (a b : A), Ret a = Ret b -> a = b.
Proof. intros A a b H. now injection H. Qed.
Lemma stamp_size : forall {U : Unicode} e ps n s, clock_ok e -> props_write (fst (stamp_of e ps n)) = Ret s -> octets s <= 34.
Proof.
  intros U e ps n s C W. unfold stamp_of in W. destruct (map_get _ ps); cbn [fst props_write] in W; [injection W as <-; cbn; lia|].
  destruct (C n) as [R Y]. rewrite stamp_write in W by easy. cbn [obind] in W. apply ret_inj in W. rewrite app_nil_r in W. subst s. rewrite !octets_app.
  destruct (stamp_text_short _ R Y) as [A L]. rewrite (octets_blen (format_utc_date_time _)), (TreeProofs.ascii_blen _ A). change (octets (lit "DTSTAMP:")) with 8.
  change (octets crlf) with 2. lia.
Qed.
Lemma uid_size : forall {U : Unicode} e ps n s, props_write (fst (uid_of e ps n)) = Ret s -> octets s <= 42.
Proof.
  intros U e ps n s W. unfold uid_of in W. destruct (map_get _ ps); cbn [fst props_write] in W; [injection W as <-; cbn; lia|].
  rewrite uid_write in W. cbn [obind] in W. apply ret_inj in W. rewrite app_nil_r in W. subst s. rewrite !octets_app.
  destruct (uuid_spec (uuid_at e n)) as [L F]. rewrite (octets_blen (fmt_uuid _)), TreeProofs.ascii_blen, L.
  - vm_compute. lia.
  - eapply Forall_impl; [|exact F]. unfold plain_char. cbn beta. intros. lia.
Qed.
Lemma trees_bound : forall {U : Unicode} e cs,
  Forall (fun o => forall kind n s, tree_write (fst (stamp_tree e kind (snd o) n)) = Ret s ->
    octets kind + inner_data (snd o) + inner_items (snd o) <= octets s <= 8 * (octets kind + inner_data (snd o)) + 90 * inner_items (snd o)) cs ->
  forall n s, trees_write (fst (stamp_trees e cs n)) = Ret s ->
  list_sum (map (fun o => octets (fst o) + inner_data (snd o)) cs) + list_sum (map (fun o => inner_items (snd o)) cs) <= octets s
  /\ octets s <= 8 * list_sum (map (fun o => octets (fst o) + inner_data (snd o)) cs) + 90 * list_sum (map (fun o => inner_items (snd o)) cs).
Proof.
  intros U e cs F. induction F as [|[k i] cs H _ IH]; intros n s W; cbn [stamp_trees fst trees_write] in W.
  - injection W as <-. cbn. lia.
  - destruct (tree_write _) as [a| |] eqn:A; cbn [obind] in W; try easy. destruct (trees_write _) as [b| |] eqn:B; cbn [obind] in W; try easy.
    injection W as <-. apply H in A. apply IH in B. rewrite octets_app. cbn [map fst snd] in *. unfold list_sum in *. cbn [fold_right] in *. lia.
Qed.
Lemma inner_size : forall {U : Unicode} e, clock_ok e -> forall i kind n s, tree_write (fst (stamp_tree e kind i n)) = Ret s ->
  octets kind + inner_data i + inner_items i <= octets s <= 8 * (octets kind + inner_data i) + 90 * inner_items i.
Proof.
  intros U e C. induction i as [ps ms cs IH] using inner_deep. intros kind n s W. rewrite stamp_tree_eq in W. cbn zeta in W. cbn [fst] in W.
  rewrite tree_write_eq, !props_write_app in W.
  destruct (props_write (fst (stamp_of e ps n))) as [a| |] eqn:A; cbn [obind] in W; try easy.
  destruct (props_write (map snd ps)) as [b| |] eqn:B; cbn [obind] in W; try easy.
  destruct (props_write (fst (uid_of e ps (snd (stamp_of e ps n))))) as [c| |] eqn:D; cbn [obind] in W; try easy.
  destruct (props_write (concat (map snd ms))) as [d| |] eqn:E; cbn [obind] in W; try easy.
  destruct (trees_write _) as [t| |] eqn:T; cbn [obind] in W; try easy. apply ret_inj in W. subst s.
  apply stamp_size in A; [|easy]. apply uid_size in D. apply lines_size in B, E. apply trees_bound in T; [|].
  - rewrite inner_data_eq, inner_items_eq. rewrite !octets_app. unfold crlf. change (octets (lit "BEGIN:")) with 6. change (octets (lit "END:")) with 4.
    change (octets [CR; LF]) with 2. lia.
  - eapply Forall_impl; [|exact IH]. easy.
Qed.
Lemma cc_size : forall {U : Unicode} e c n s m, clock_ok e -> cc_write e c n = Ret (s, m) ->
  cc_data c + inner_items (cc_inner c) <= octets s <= 8 * cc_data c + 90 * inner_items (cc_inner c).
Proof.
  intros U e c n s m C W. unfold cc_write in W. rewrite inner_write_tree in W by easy. destruct (tree_write _) as [a| |] eqn:T; cbn [obind] in W; try easy.
  injection W as <- _. unfold cc_data. apply (inner_size e C) in T. lia.
Qed.
Lemma cal_size : forall {U : Unicode} e c s, clock_ok e -> cal_write e c = Ret s ->
  cal_data c + cal_items c <= octets s <= 8 * cal_data c + 90 * cal_items c.
Proof.
  intros U e c s C W. unfold cal_write in W. destruct (props_write _) as [a| |] eqn:A; cbn [obind] in W; try easy.
  destruct (ccs_write _ _ _) as [[b m]| |] eqn:B; cbn [obind] in W; try easy. apply ret_inj in W. subst s. apply lines_size in A.
  assert (G : list_sum (map cc_data (c_comps c)) + list_sum (map (fun x => inner_items (cc_inner x)) (c_comps c)) <= octets b
    /\ octets b <= 8 * list_sum (map cc_data (c_comps c)) + 90 * list_sum (map (fun x => inner_items (cc_inner x)) (c_comps c))).
  { clear A. revert B. set (n := 0) at 1. clearbody n. revert n b m. induction (c_comps c) as [|x cs IH]; intros n b m B; cbn [ccs_write] in B.
    - injection B as <- _. cbn. lia.
    - destruct (cc_write e x n) as [[t m1]| |] eqn:X; cbn [obind] in B; try easy. destruct (ccs_write e cs m1) as [[r m2]| |] eqn:R; cbn [obind] in B; try easy.
      injection B as <- _. apply cc_size in X; [|easy]. apply IH in R. rewrite octets_app. cbn [map] in *. unfold list_sum in *. cbn [fold_right] in *. lia. }
  unfold cal_data, cal_items. rewrite !octets_app. unfold crlf. change (octets (lit "BEGIN:VCALENDAR")) with 15. change (octets (lit "END:VCALENDAR")) with 13.
  change (octets [CR; LF]) with 2. lia.
Qed.

(** ** The work of folding *)
Lemma nth_cost_le : forall l p, nth_cost l p <= length l.
Proof. intros. unfold nth_cost. lia. Qed.
Lemma back_cost_le : forall l p q, back_up l p = Some q -> back_cost l p <= (p - q) * length l.
Proof.
  intros l p. induction p as [p IH] using lt_wf_ind. intros q H. destruct p as [|p]; cbn [back_up back_cost] in *.
  - destruct (is_boundary l 0); cbn; lia.
  - destruct (is_boundary l (S p)); [injection H as <-; lia|]. pose proof (nth_cost_le l p). destruct (pos_is_ws l p).
    + destruct p as [|p]; [easy|]. pose proof (IH p ltac:(lia) q H). apply lands_spec in H. apply lands_le in H.
      replace (S (S p) - q) with (S (S (p - q))) by lia. cbn [Nat.mul]. lia.
    + pose proof (IH p ltac:(lia) q H). apply lands_spec in H. apply lands_le in H. replace (S p - q) with (S (p - q)) by lia. cbn [Nat.mul]. lia.
Qed.
Lemma cost_le : forall l a n ps last, cuts l a n ps last -> n <= octets a + 75 ->
  forall f, fold_cost f l (blen l - blen a) (blen a) n <= 76 * length ps * length l.
Proof.
  intros l a n ps last H. induction H as [a n r E L|a n p r ps last E L C H IH]; intros B f.
  - destruct f as [|f]; cbn [fold_cost]; [lia|]. subst l. rewrite octets_blen in L. rewrite blen_app. unfold LIMIT.
    replace (blen a + blen r - blen a <=? 75) with true by lia. lia.
  - destruct f as [|f]; cbn [fold_cost]; [lia|]. assert (Q : (blen l - blen a <=? LIMIT) = false).
    { subst l. rewrite octets_blen in L. rewrite !blen_app in *. unfold LIMIT. lia. }
    rewrite Q. pose proof (cut_place_le _ _ _ C). apply cut_place_spec in C. unfold np1 in C. rewrite C. pose proof (nth_cost_le l n). apply back_cost_le in C.
    rewrite !octets_blen in *.
    assert (S1 : slice l (blen a) (blen (a ++ p)) = Some p) by (subst l; apply slice_app). rewrite S1.
    replace (blen l - blen a - (blen (a ++ p) - blen a)) with (blen l - blen (a ++ p)) by (rewrite blen_app; lia).
    specialize (IH ltac:(lia) f). change (LIMIT - 1) with 74.
    assert (K : (if pos_is_ws l n then n - 1 else n) - blen (a ++ p) <= 75) by (rewrite blen_app in *; destruct (pos_is_ws l n); lia).
    cbn [length]. apply (Nat.mul_le_mono_r _ _ (length l)) in K. lia.
Qed.
Lemma work_le : forall l s, fold_line l = Ret s -> fold_work l <= 76 * octets l * length l.
Proof.
  intros l s H. apply fold_exact in H as (ps & last & C & _). pose proof (fold_pieces_few _ _ _ C) as P.
  pose proof (cost_le _ _ _ _ _ C ltac:(cbn; lia) (blen l + 2)) as W. cbn [blen] in W. rewrite Nat.sub_0_r in W. unfold fold_work. change LIMIT with 75.
  eapply Nat.le_trans; [exact W|]. apply Nat.mul_le_mono_r. lia.
Qed.
(** ASCII lines: never backing up. *)
Lemma ascii_boundary : forall l p, Forall (fun c => non_ascii c = false) l -> p <= length l -> is_boundary l p = true.
Proof.
  intros l p F. revert p. induction F as [|c l A _ IH]; intros [|p] L; cbn [is_boundary length] in *; try easy; try lia.
  assert (U : utf8_len c = 1) by (unfold non_ascii in A; unfold utf8_len; now replace (c <? 128)%N with true by lia).
  rewrite U. replace (S p <? 1) with false by lia. apply IH. lia.
Qed.
Lemma ascii_back : forall l p, Forall (fun c => non_ascii c = false) l -> p <= length l -> back_cost l p = 0 /\ back_up l p = Some p.
Proof. intros l p F L. pose proof (ascii_boundary l p F L) as B. destruct p; cbn [back_cost back_up]; now rewrite B. Qed.
Lemma ascii_cost : forall l a n ps last, Forall (fun c => non_ascii c = false) l -> cuts l a n ps last -> n <= octets a + 75 ->
  forall f, fold_cost f l (blen l - blen a) (blen a) n <= length ps * length l.
Proof.
  intros l a n ps last A H. induction H as [a n r E L|a n p r ps last E L C H IH]; intros B f.
  - destruct f as [|f]; cbn [fold_cost]; [lia|]. subst l. rewrite octets_blen in L. rewrite blen_app. unfold LIMIT.
    replace (blen a + blen r - blen a <=? 75) with true by lia. lia.
  - destruct f as [|f]; cbn [fold_cost]; [lia|]. pose proof (ascii_octets l A) as O. rewrite octets_blen in O.
    assert (Q : (blen l - blen a <=? LIMIT) = false /\ n <= length l).
    { rewrite <- O. subst l. rewrite !octets_blen in *. rewrite !blen_app in *. unfold LIMIT. lia. }
    destruct Q as [Q N]. rewrite Q. pose proof (cut_place_le _ _ _ C) as CP. apply cut_place_spec in C. unfold np1 in C. rewrite C. pose proof (nth_cost_le l n) as NC.
    destruct (ascii_back l (if pos_is_ws l n then n - 1 else n) A) as [-> _]; [destruct (pos_is_ws l n); lia|].
    rewrite !octets_blen in *.
    assert (S1 : slice l (blen a) (blen (a ++ p)) = Some p) by (subst l; apply slice_app). rewrite S1.
    replace (blen l - blen a - (blen (a ++ p) - blen a)) with (blen l - blen (a ++ p)) by (rewrite blen_app; lia).
    specialize (IH ltac:(lia) f). change (LIMIT - 1) with 74. cbn [length]. lia.
Qed.
Lemma ascii_work : forall l, Forall (fun c => non_ascii c = false) l -> 73 * fold_work l <= length l * length l.
Proof.
  intros l A. destruct (cut_ascii_ex (S (length l)) 75 l) as (ps & last & C); [lia|now right|].
  pose proof (ascii_few _ _ _ _ C ltac:(now right)) as P. pose proof (ascii_cuts 75 l ps last C [] ltac:(now right) A) as K. cbn [app length Nat.add] in K.
  pose proof (ascii_cost _ _ _ _ _ A K ltac:(cbn; lia) (blen l + 2)) as W. cbn [blen] in W. rewrite Nat.sub_0_r in W. unfold fold_work. change LIMIT with 75.
  apply (Nat.mul_le_mono_r _ _ (length l)) in P. lia.
Qed.
(** Lines of one letter. *)
Definition as_line (n : nat) : str := repeat 65%N n.
Lemma as_ascii : forall n, Forall (fun c => non_ascii c = false) (as_line n).
Proof. intros n. apply Forall_forall. intros c I. apply repeat_spec in I. now subst. Qed.
Lemma as_ws : forall n p, pos_is_ws (as_line n) p = false.
Proof.
  intros n p. unfold pos_is_ws. destruct (nth_error (as_line n) p) as [c|] eqn:E; [|easy]. apply nth_error_In in E. apply repeat_spec in E. now subst.
Qed.
Lemma as_slice : forall n a b, a <= b -> b <= n -> exists s, slice (as_line n) a b = Some s.
Proof.
  intros n a b L M. assert (E : as_line n = as_line a ++ as_line (b - a) ++ as_line (n - b)).
  { unfold as_line. rewrite <- !repeat_app. f_equal. lia. }
  assert (B : forall k, blen (as_line k) = k). { intros k. rewrite <- octets_blen, ascii_octets by apply as_ascii. apply repeat_length. }
  exists (as_line (b - a)). rewrite E. pose proof (slice_app (as_line a) (as_line (b - a)) (as_line (n - b))) as Q. rewrite blen_app, !B in Q.
  now replace (a + (b - a)) with b in Q by lia.
Qed.
Lemma as_cost : forall n j f pos, pos + 76 + 74 * j = n -> j < f ->
  S j * pos + 37 * j * S j <= fold_cost f (as_line n) (n - pos) pos (pos + 74).
Proof.
  intros n. induction j as [|j IH]; intros f pos E F; (destruct f as [|f]; [lia|]); cbn [fold_cost]; unfold LIMIT;
    replace (n - pos <=? 75) with false by lia; rewrite as_ws;
    destruct (ascii_back (as_line n) (pos + 74) (as_ascii n)) as [-> ->]; try (unfold as_line; rewrite repeat_length; lia);
    destruct (as_slice n pos (pos + 74)) as [s S]; try lia; rewrite S; unfold nth_cost; unfold as_line at 1; rewrite repeat_length.
  - lia.
  - replace (n - pos - (pos + 74 - pos)) with (n - (pos + 74)) by lia. change (75 - 1) with 74. specialize (IH f (pos + 74) ltac:(lia) ltac:(lia)).
    replace (Nat.min (Datatypes.S (pos + 74)) n) with (pos + 75) by lia. lia.
Qed.
Lemma as_work : forall k, 37 * k * k <= fold_work (as_line (75 + 76 + 74 * k)).
Proof.
  intros k. unfold fold_work. remember (75 + 76 + 74 * k) as n eqn:En.
  assert (B : blen (as_line n) = n). { rewrite <- octets_blen, ascii_octets by apply as_ascii. apply repeat_length. }
  rewrite B. replace (n + 2) with (Datatypes.S (n + 1)) by lia. cbn [fold_cost]. unfold LIMIT. replace (n <=? 75) with false by lia. rewrite as_ws.
  destruct (ascii_back (as_line n) 75 (as_ascii n)) as [-> ->]; [unfold as_line; rewrite repeat_length; lia|].
  destruct (as_slice n 0 75) as [s S]; [lia|lia|]. rewrite S. change (75 - 0) with 75. change (75 - 1) with 74.
  pose proof (as_cost n k (n + 1) 75 ltac:(lia) ltac:(lia)). lia.
Qed.
