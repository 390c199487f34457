(** Proofs of C54-C59. *)
From Verif Require Import Str StrFacts Spec ValueTypes Property Chrono DateTime Component Calendar Nom Parser SpecDoc SpecConv
  SpecTree SpecDate DateProofs BuildProofs ConvProofs TreeProofs RoundProofs SpecMore.
From Coq Require Import ZifyBool ZifyNat ZifyN.

(** ** Text fields *)
Lemma field_name_inj : forall f g, lit (field_name f) = lit (field_name g) -> f = g.
Proof. intros [] []; intros H; try reflexivity; vm_compute in H; discriminate H. Qed.
Lemma field_get_spec : forall f i, field_get f i = option_map p_val (map_get (lit (field_name f)) (i_props i)).
Proof. now intros [] i. Qed.
Lemma field_set_spec : forall f i s, field_set f i s = append_property i (prop_new (lit (field_name f)) s).
Proof. now intros [] i s. Qed.
Lemma field_set_get : forall f i s, field_get f (field_set f i s) = Some s.
Proof.
  intros f i s. rewrite field_get_spec, field_set_spec. unfold append_property. cbn [i_props p_key prop_new].
  now rewrite map_get_bt_same.
Qed.
Lemma append_other : forall f i p, p_key p <> lit (field_name f) -> field_get f (append_property i p) = field_get f i.
Proof.
  intros f i p H. rewrite !field_get_spec. unfold append_property. cbn [i_props]. rewrite map_get_bt_other; [easy|].
  intros E. now apply H.
Qed.
Lemma field_set_other : forall f g i s, f <> g -> field_get g (field_set f i s) = field_get g i.
Proof.
  intros f g i s N. rewrite field_set_spec. apply append_other. cbn [p_key prop_new]. intros E. now apply N, field_name_inj.
Qed.
Lemma field_set_prop : forall f i s, map_get (lit (field_name f)) (i_props (field_set f i s)) = Some (mk_property (lit (field_name f)) s []).
Proof. intros f i s. rewrite field_set_spec. unfold append_property. cbn [i_props p_key prop_new]. now rewrite map_get_bt_same. Qed.

(** ** Looking up *)
Lemma find_first_of : forall A (key : A -> str) k l x,
  find (fun y => str_eqb (key y) k) l = Some x <-> first_of key k l x.
Proof.
  intros A key k l x. split.
  - induction l as [|y l IH]; [easy|]. cbn [find]. destruct (str_eqb (key y) k) eqn:E.
    + intros H. injection H as <-. exists [], l. repeat split; [now apply str_eqb_eq|constructor].
    + intros H. destruct (IH H) as (a & b & -> & K & F). exists (y :: a), b. repeat split; [easy|]. constructor; [|easy].
      now apply str_eqb_neq.
  - intros (a & b & -> & K & F). induction F as [|y a N F IH].
    + cbn [app find]. now rewrite (proj2 (str_eqb_eq _ _) K).
    + cbn [app find]. now rewrite (proj2 (str_eqb_neq _ _) N).
Qed.
Lemma find_none_of : forall A (key : A -> str) k l,
  find (fun y => str_eqb (key y) k) l = None <-> Forall (fun y => key y <> k) l.
Proof.
  intros A key k l. induction l as [|y l IH]; [split; constructor|]. cbn [find]. destruct (str_eqb (key y) k) eqn:E.
  - split; [easy|]. intros F. inversion F. now apply str_eqb_eq in E.
  - rewrite IH. split.
    + intros F. constructor; [now apply str_eqb_neq|easy].
    + intros F. now inversion F.
Qed.
Lemma only_first_last : forall A (key : A -> str) k l x y, at_most_one key k l -> first_of key k l x -> last_of key k l y -> x = y.
Proof.
  intros A key k l x y O (a & b & E & K & F) (a' & b' & E' & K' & F'). rewrite E in E', O. clear E l.
  revert a' E'. induction F as [|z a N F IH]; intros a' E'.
  - destruct a' as [|w a']; [now injection E'|]. cbn [app] in E'. injection E' as -> E'. exfalso.
    apply (O [] w a' y b'); [cbn [app]; now rewrite E'|easy|easy].
  - destruct a' as [|w a']; cbn [app] in E'; injection E' as -> E'.
    + now destruct N.
    + apply (IH) with (a' := a'); [|easy]. intros p u q v r Q. apply (O (w :: p) u q v r). cbn [app]. now rewrite Q.
Qed.
Lemma first_last : forall A (key : A -> str) k l x, first_of key k l x -> exists y, last_of key k l y.
Proof.
  intros A key k l x (a & b & -> & K & F). revert a x K F. induction b as [|z b IH] using rev_ind; intros a x K F.
  - exists x, a, []. repeat split; [easy|constructor].
  - destruct (str_eq_dec (key z) k) as [E|N].
    + exists z, (a ++ x :: b), []. repeat split; [now rewrite <- app_assoc|easy|constructor].
    + destruct (IH a x K F) as (y & a' & b' & E' & K' & F'). exists y, a', (b' ++ [z]). repeat split; [|easy|].
      * change (x :: b ++ [z]) with ((x :: b) ++ [z]). rewrite app_assoc, E'. now rewrite <- app_assoc.
      * apply Forall_app. split; [easy|]. now constructor.
Qed.
(** The parameter a lookup in the converted property finds. *)
Lemma says_get : forall q k, map_get k (p_params (conv_prop q))
  = option_map (fun a => match pp_val a with Some w => w | None => [] end) (find (fun a => str_eqb (pp_key a) k) (rev (pr_params q))).
Proof.
  intros q k. unfold conv_prop. cbn [p_params]. rewrite map_get_hm_fold. cbn [map_get]. rewrite map_get_find.
  rewrite <- map_rev, find_map. cbn [fst]. unfold conv_param. cbn [fst].
  destruct (find (fun x => str_eqb (pp_key x) k) (rev (pr_params q))); reflexivity.
Qed.
Lemma says_get_one : forall q k, at_most_one pp_key k (pr_params q) -> map_get k (p_params (conv_prop q))
  = option_map (fun a => match pp_val a with Some w => w | None => [] end) (find (fun a => str_eqb (pp_key a) k) (pr_params q)).
Proof.
  intros q k O. rewrite says_get. f_equal. destruct (find _ (pr_params q)) as [x|] eqn:E.
  - apply find_first_of in E. destruct (first_last _ _ _ _ _ E) as (y & L). rewrite (only_first_last _ _ _ _ _ _ O E L).
    now apply last_of_find.
  - apply find_none_of in E. apply find_none_of. now apply Forall_rev.
Qed.

(** ** Value types *)
Lemma assoc_lit_in : forall A s (t : list (string * A)) x, assoc_lit s t = Some x -> exists n, In (n, x) t /\ s = lit n.
Proof.
  induction t as [|[n a] t IH]; intros x H; [easy|]. cbn [assoc_lit] in H. destruct (str_eqb s (lit n)) eqn:E.
  - injection H as ->. exists n. split; [now left|now apply str_eqb_eq].
  - destruct (IH x H) as (m & I & ->). exists m. split; [now right|easy].
Qed.
Lemma by_name_upper : forall {U : Unicode} n t, In (n, t) rfc_default_types -> by_name (lit n) = Some t.
Proof.
  intros U n t I. cbn [rfc_default_types In] in I.
  repeat (destruct I as [I|I]; [injection I as <- <-; reflexivity|]). destruct I.
Qed.
Lemma by_name_rfc : forall {U : Unicode} k t, by_name k = Some t <-> exists n, In (n, t) rfc_default_types /\ k = lit n.
Proof.
  intros U k t. split.
  - unfold by_name. destruct (existsb is_lowercase k); [easy|]. intros H. apply assoc_lit_in in H as (n & I & ->).
    exists n. split; [|easy]. cbn [by_name_table In] in I.
    repeat (destruct I as [I|I]; [injection I as <- <-; cbv; tauto|]). destruct I.
  - intros (n & I & ->). now apply by_name_upper.
Qed.

(** ** Dates *)
Lemma parse_exclusive : forall s,
  (forall d, parse_date s = Some d -> parse_dt_z s = None /\ parse_dt s = None)
  /\ (forall d, parse_dt s = Some d -> parse_dt_z s = None /\ parse_date s = None).
Proof.
  intros s. unfold parse_date, parse_dt_z, parse_dt, scan_dt. destruct (scan_ymd s) as [[[[y m] d] r]|]; [|easy]. split.
  - intros x H. now destruct r.
  - intros x H. destruct r as [|c r]; [easy|]. destruct (scan_lit _ _) as [r2|]; [|easy]. destruct (scan_hms r2) as [[t r3]|]; [|easy].
    destruct (from_ymd_opt y m d); [|easy]. now destruct r3.
Qed.
Lemma try_from_agrees : forall {U : Unicode} q x, at_most_one pp_key (lit "TZID") (pr_params q) ->
  Forall (fun a => pp_key a = lit "TZID" -> pp_val a <> None) (pr_params q) ->
  dpt_from_property (conv_prop q) = Some x -> dpt_try_from q = Some x.
Proof.
  intros U q x O V H. destruct (parse_exclusive (pr_val q)) as [X1 X2]. unfold dpt_try_from. unfold dpt_from_property in H.
  change (p_val (conv_prop q)) with (pr_val q) in H.
  assert (D : match prop_value_type (conv_prop q) with Some Date => option_map DDate (parse_date (pr_val q)) = Some x
              | _ => option_map DT (cal_dt_from_property (conv_prop q)) = Some x end).
  { now destruct (prop_value_type (conv_prop q)) as [[]|]. }
  assert (C : option_map DDate (parse_date (pr_val q)) = Some x \/ option_map DT (cal_dt_from_property (conv_prop q)) = Some x).
  { destruct (prop_value_type (conv_prop q)) as [[]|]; auto. }
  clear H D. destruct C as [H|H].
  - destruct (parse_date (pr_val q)) as [d|] eqn:E; [|easy]. destruct (X1 d eq_refl) as [-> _]. exact H.
  - unfold cal_dt_from_property in H. change (p_val (conv_prop q)) with (pr_val q) in H. rewrite (says_get_one _ _ O) in H.
    destruct (find _ (pr_params q)) as [a|] eqn:F.
    + cbn [option_map] in H. destruct (parse_dt (pr_val q)) as [d|] eqn:E; [|easy]. destruct (X2 d eq_refl) as [-> ->].
      apply find_first_of in F as (l & r & Q & K & _). rewrite Q in V. apply Forall_app in V as [_ V]. inversion V as [|? ? V1 V2].
      specialize (V1 K). destruct (pp_val a) as [w|]; [|easy]. exact H.
    + cbn [option_map] in H. destruct (parse_dt (pr_val q)) as [d|] eqn:E.
      * destruct (X2 d eq_refl) as [-> ->]. exact H.
      * unfold cal_dt_from_str, parse_utc_date_time, parse_naive_date_time in H. rewrite E in H.
        destruct (parse_dt_z (pr_val q)) as [d|] eqn:Z; [exact H|easy].
Qed.
(** [TryFrom] goes by the text alone: what it accepts. *)
Lemma try_from_spec : forall q, match dpt_try_from q with
  | Some (DDate d) => parse_date (pr_val q) = Some d
  | Some (DT (Utc d)) => parse_dt_z (pr_val q) = Some d
  | Some (DT (Floating d)) => parse_dt (pr_val q) = Some d /\ Forall (fun a => pp_key a <> lit "TZID") (pr_params q)
  | Some (DT (WithTimezone d tz)) => parse_dt (pr_val q) = Some d /\ exists a, first_of pp_key (lit "TZID") (pr_params q) a /\ pp_val a = Some tz
  | None => parse_date (pr_val q) = None /\ parse_dt_z (pr_val q) = None
      /\ (parse_dt (pr_val q) = None \/ exists a, first_of pp_key (lit "TZID") (pr_params q) a /\ pp_val a = None)
  end.
Proof.
  intros q. unfold dpt_try_from. destruct (parse_dt_z (pr_val q)) as [d|] eqn:E1; [easy|].
  destruct (parse_date (pr_val q)) as [d|] eqn:E2; [easy|]. destruct (parse_dt (pr_val q)) as [d|] eqn:E3.
  - destruct (find _ (pr_params q)) as [a|] eqn:F.
    + apply find_first_of in F. destruct (pp_val a) eqn:V; [now split; [|exists a]|]. split; [easy|]. split; [easy|]. right. now exists a.
    + apply find_none_of in F. easy.
  - split; [easy|]. split; [easy|]. now left.
Qed.

(** ** Roots *)
Lemma roots_components : forall cs, c_comps (conv_roots cs) = c_comps (conv_cal (pcal_of_roots cs)) /\ c_props (conv_roots cs) = default_props.
Proof.
  intros [|r cs]; [easy|]. unfold conv_roots, pcal_of_roots. now destruct (str_eqb (pc_name r) (lit "VCALENDAR")).
Qed.
Lemma roots_spec : forall cs, c_comps (conv_roots cs)
  = map conv_cc (match cs with
                 | r :: _ => if str_eq_dec (pc_name r) (lit "VCALENDAR") then pc_comps r else cs
                 | [] => [] end).
Proof.
  intros [|r cs]; [easy|]. unfold conv_roots. cbn [c_comps cal_from_iter].
  destruct (str_eq_dec (pc_name r) (lit "VCALENDAR")) as [E|E].
  - now rewrite (proj2 (str_eqb_eq _ _) E).
  - now rewrite (proj2 (str_eqb_neq _ _) E).
Qed.
(** ** Lookup before and after conversion *)
Lemma find_prop_spec : forall c n, match find_prop c n with
  | Some p => first_of pr_name n (pc_props c) p
  | None => Forall (fun p => pr_name p <> n) (pc_props c)
  end.
Proof.
  intros c n. unfold find_prop. destruct (find _ _) as [p|] eqn:E; [now apply find_first_of|now apply find_none_of].
Qed.
Lemma find_prop_agrees : forall c n, at_most_one pr_name n (pc_props c) -> ~ multi_name n ->
  property_value (conv_inner c) n = option_map pr_val (find_prop c n).
Proof.
  intros [m ps cs] n O N. pose proof (conv_inner_keeps (mk_pcomp m ps cs)) as K. inversion K as [? ? ? i K1 _ _]. subst.
  specialize (K1 n N) as [K1 _]. pose proof (find_prop_spec (mk_pcomp m ps cs) n) as F. cbn [pc_props] in F, O.
  unfold property_value. destruct (map_get n (i_props (conv_inner (mk_pcomp m ps cs)))) as [p|].
  - destruct K1 as (q & L & S). destruct (find_prop _ n) as [q'|].
    + rewrite (only_first_last _ _ _ _ _ _ O F L). cbn [option_map]. f_equal. apply S.
    + exfalso. destruct L as (a & b & -> & E & _). apply Forall_app in F as [_ F]. now inversion F.
  - destruct (find_prop _ n) as [q'|]; [|easy]. exfalso. destruct F as (a & b & -> & E & _). apply Forall_app in K1 as [_ F]. now inversion F.
Qed.

(** ** Generated identifiers *)
Lemma hex_length : forall w n, length (hex w n) = w.
Proof. induction w as [|w IH]; intros n; [easy|]. cbn [hex]. rewrite app_length, IH. cbn. lia. Qed.
Lemma hex_digit_inj : forall a b, (a < 16)%N -> (b < 16)%N -> hex_digit a = hex_digit b -> a = b.
Proof. intros a b A B. unfold hex_digit. destruct (a <? 10)%N eqn:E, (b <? 10)%N eqn:F; lia. Qed.
Lemma hex_inj : forall w a b, (a < 16 ^ N.of_nat w)%N -> (b < 16 ^ N.of_nat w)%N -> hex w a = hex w b -> a = b.
Proof.
  induction w as [|w IH]; intros a b A B H; [change (16 ^ N.of_nat 0)%N with 1%N in *; lia|]. cbn [hex] in H.
  apply app_inj_tail in H as [H D]. rewrite Nat2N.inj_succ, N.pow_succ_r' in A, B.
  apply hex_digit_inj in D; [|apply N.mod_lt; easy|apply N.mod_lt; easy].
  apply IH in H; [|apply N.div_lt_upper_bound; lia|apply N.div_lt_upper_bound; lia].
  rewrite (N.div_mod a 16), (N.div_mod b 16) by easy. now rewrite H, D.
Qed.
Lemma uuid_text_inj : forall a b, (a < 2 ^ 128)%N -> (b < 2 ^ 128)%N -> fmt_uuid a = fmt_uuid b -> a = b.
Proof.
  intros a b A B H. apply (hex_inj 32); [exact A|exact B|]. unfold fmt_uuid in H.
  pose proof (hex_length 32 a) as LA. pose proof (hex_length 32 b) as LB.
  remember (hex 32 a) as x. remember (hex 32 b) as y. clear - H LA LB.
  do 32 (destruct x as [|? x]; [discriminate LA|]). destruct x; [|discriminate LA].
  do 32 (destruct y as [|? y]; [discriminate LB|]). destruct y; [|discriminate LB].
  cbn [firstn skipn app] in H. clear LA LB. injection H. intros. subst. reflexivity.
Qed.

Definition uuids (e : env) (l : list nat) : list str := map (fun m => fmt_uuid (uuid_at e m)) l.
Definition all_parts (cs : list other) : nat := fold_right (fun o n => parts (snd o) + n) 0 cs.
Definition drawn (n n' k : nat) (l : list nat) : Prop := n <= n' <= n + k /\ Forall (fun m => n <= m < n') l /\ NoDup l.
Lemma drawn_app : forall n n' n'' k k' a b, drawn n n' k a -> drawn n' n'' k' b -> drawn n n'' (k + k') (a ++ b).
Proof.
  intros n n' n'' k k' a b (A1 & A2 & A3) (B1 & B2 & B3). split; [lia|]. split.
  - apply Forall_app. split; [eapply Forall_impl; [|exact A2]|eapply Forall_impl; [|exact B2]]; cbn beta; lia.
  - rewrite Forall_forall in A2, B2. clear - A2 A3 B2 B3. induction A3 as [|x a N A IH]; [easy|]. cbn [app]. constructor.
    + intros I. apply in_app_or in I as [I|I]; [easy|]. apply B2 in I. specialize (A2 x (or_introl eq_refl)). lia.
    + apply IH. intros y I. now apply A2; right.
Qed.
Lemma uids_drawn : forall e i kind n, exists l,
  new_uids i (fst (stamp_tree e kind i n)) (uuids e l) /\ drawn n (snd (stamp_tree e kind i n)) (2 * parts i) l.
Proof.
  intros e i. induction i as [ps ms cs IH] using inner_deep. intros kind n. rewrite stamp_tree_eq. cbn zeta. cbn [fst snd].
  assert (G : forall n, exists l, new_uids_all cs (fst (stamp_trees e cs n)) (uuids e l)
    /\ drawn n (snd (stamp_trees e cs n)) (2 * all_parts cs) l).
  { clear - IH. induction IH as [|[k c] cs H _ IH]; intros n.
    - exists []. split; [constructor|]. cbn. repeat split; try lia; constructor.
    - cbn [stamp_trees fst snd] in *. destruct (H k n) as (a & A1 & A2). destruct (IH (snd (stamp_tree e k c n))) as (b & B1 & B2).
      exists (a ++ b). split.
      + unfold uuids. rewrite map_app. now constructor.
      + replace (2 * all_parts ((k, c) :: cs)) with (2 * parts c + 2 * all_parts cs) by (cbn [all_parts fold_right snd]; fold all_parts; unfold all_parts; lia).
        eapply drawn_app; eassumption. }
  set (n1 := snd (stamp_of e ps n)). destruct (G (snd (uid_of e ps n1))) as (b & B1 & B2).
  assert (N1 : n <= n1 <= n + 1) by (unfold n1, stamp_of; destruct (map_get (lit "DTSTAMP") ps); cbn; lia).
  exists ((if map_get (lit "UID") ps then [] else [n1]) ++ b). split.
  - unfold uuids. rewrite map_app. constructor; [|exact B1]. cbn [i_props]. unfold uid_of.
    destruct (map_get (lit "UID") ps); [easy|]. cbn [map fst]. eexists. split; [|reflexivity].
    apply in_or_app. right. apply in_or_app. right. now left.
  - replace (2 * parts (mk_inner ps ms cs)) with (2 + 2 * all_parts cs) by (cbn [parts]; unfold all_parts; lia).
    apply drawn_app with (n' := snd (uid_of e ps n1)); [|exact B2]. unfold uid_of.
    destruct (map_get (lit "UID") ps); cbn [snd]; (split; [lia|]; split); repeat constructor; try lia; intros [].
Qed.
Lemma trees_drawn : forall e cs n, exists l,
  new_uids_all cs (fst (stamp_trees e cs n)) (uuids e l) /\ drawn n (snd (stamp_trees e cs n)) (2 * all_parts cs) l.
Proof.
  intros e cs. induction cs as [|[k c] cs IH]; intros n.
  - exists []. split; [constructor|]. cbn. repeat split; try lia; constructor.
  - cbn [stamp_trees fst snd] in *. destruct (uids_drawn e c k n) as (a & A1 & A2).
    destruct (IH (snd (stamp_tree e k c n))) as (b & B1 & B2). exists (a ++ b). split.
    + unfold uuids. rewrite map_app. now constructor.
    + pose proof (drawn_app _ _ _ _ _ _ _ A2 B2) as D. rewrite <- Nat.mul_add_distr_l in D. exact D.
Qed.
Lemma fresh_distinct : forall e k n' l, fresh e k -> drawn 0 n' k l -> NoDup (uuids e l).
Proof.
  intros e k n' l F (D1 & D2 & D3). unfold uuids.  induction D3 as [|x l N D IH]; [constructor|]. cbn [map]. inversion D2; subst.
  constructor; [|now apply IH]. intros I. apply in_map_iff in I as (y & E & I). rewrite Forall_forall in *.
  assert (0 <= y < n') by auto.
  apply uuid_text_inj in E; [|apply (F y y); lia|apply (F x x); lia]. apply (F y x) in E; [|lia|lia]. now subst y.
Qed.
Lemma fresh_uids {U : Unicode} : forall e c s, Forall (fun x => made (cc_inner x)) (c_comps c) -> clock_ok e -> fresh e (2 * cal_parts c) ->
  cal_write e c = Ret s -> exists ts us,
  text_of (Node (lit "VCALENDAR") (c_props c) ts) s
  /\ Forall2 (fun x t => arranged e (cc_kind x) (cc_inner x) t) (c_comps c) ts
  /\ new_uids_all (map (fun x => (cc_kind x, cc_inner x)) (c_comps c)) ts us /\ NoDup us.
Proof.
  intros e c s M C F W. rewrite cal_write_tree in W by easy. apply tree_write_spec in W.
  destruct (trees_drawn e (kinds (c_comps c)) 0) as (l & L1 & L2). eexists. exists (uuids e l).
  split; [exact W|]. split; [|split; [exact L1|]].
  - generalize 0. clear - M. induction M as [|x l H _ IH]; intros n; [constructor|].
    cbn [kinds map stamp_trees fst]. constructor; [|apply IH]. now apply stamp_tree_arranged, made_well.
  - eapply (fresh_distinct e _ _ l F). replace (cal_parts c) with (all_parts (kinds (c_comps c))); [exact L2|].
    unfold cal_parts, all_parts, kinds. clear. induction (c_comps c) as [|x r IH]; [easy|]. cbn [map fold_right snd]. now rewrite IH.
Qed.
