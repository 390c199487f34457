(** What is read is no larger than the text. *)
From Verif Require Import Str StrFacts Spec Fold Text TextProofs ValueTypes Property Chrono DateTime
  Component Alarm Calendar Nom Parser SpecBuild SpecDate SpecTree SpecDoc SpecConv SpecRound SpecItems SpecGrammar SpecSize BuildProofs DateProofs ValueProofs
  TreeProofs ParserProofs DocProofs ConvProofs RoundProofs LfProofs RoundChecks ItemProofs GrammarProofs FoldProofs UnfoldProofs SizeProofs.
From Coq Require Import ZifyBool ZifyNat ZifyN.

(** ** Text *)
Lemma octets_cons : forall c s, octets (c :: s) = octets [c] + octets s.
Proof. intros c s. apply (octets_app [c]). Qed.
Lemma replace_le : forall a b d s, octets [d] <= octets [a] + octets [b] -> octets (replace [a; b] [d] s) <= octets s.
Proof.
  intros a b d s D. remember (length s) as n eqn:L. revert s L. induction n as [n IH] using lt_wf_ind. intros s ->.
  destruct s as [|x s]; [easy|]. destruct (starts_with [a; b] (x :: s)) eqn:E.
  - cbn [starts_with] in E. destruct s as [|y s]; [now rewrite andb_false_r in E|]. rewrite !andb_true_iff, !N.eqb_eq in E. destruct E as [-> [-> _]].
    change (x :: y :: s) with ([x; y] ++ s) at 1. rewrite (replace_match x [y] [d] s). cbn [app]. rewrite octets_cons, (octets_cons x), (octets_cons y).
    specialize (IH (length s) ltac:(cbn [length]; lia) s eq_refl). lia.
  - rewrite replace_skip by easy. rewrite octets_cons, (octets_cons x s). specialize (IH (length s) ltac:(cbn [length]; lia) s eq_refl). lia.
Qed.
Lemma unescape_le : forall s, octets (unescape_text s) <= octets s.
Proof.
  intros s. unfold unescape_text. destruct (_ || _); [|easy].
  repeat (etransitivity; [apply replace_le; vm_compute; lia|]). easy.
Qed.
Lemma decode_le : forall {U : Unicode} k ps v, octets (decode_value k ps v) <= octets v.
Proof. intros U k ps v. unfold decode_value. destruct determin_value_type as [[]|]; try easy. apply unescape_le. Qed.
Lemma unfolds_le : forall s u, unfolds s u -> octets u <= octets s.
Proof.
  intros s u H. induction H; [easy| | |].
  - rewrite (octets_cons CR), (octets_cons LF), (octets_cons c r). lia.
  - rewrite (octets_cons LF), (octets_cons c r). lia.
  - rewrite (octets_cons c t), (octets_cons c r). lia.
Qed.

(** ** Maps *)
Lemma sum_bt : forall {V} (f : str * V -> nat) k v m, list_sum (map f (bt_insert k v m)) <= list_sum (map f m) + f (k, v).
Proof.
  intros V f k v m. induction m as [|[k' w] m IH]; cbn [bt_insert]; [cbn; lia|]. unfold list_sum in *. destruct (str_cmp k k'); cbn [map fold_right] in *; lia.
Qed.
Lemma sum_hm : forall {V} (f : str * V -> nat) k v m, list_sum (map f (hm_insert k v m)) <= list_sum (map f m) + f (k, v).
Proof.
  intros V f k v m. induction m as [|[k' w] m IH]; cbn [hm_insert]; [cbn; lia|]. unfold list_sum in *. destruct (str_eqb k k') eqn:E; cbn [map fold_right] in *; [|lia].
  apply str_eqb_eq in E. subst k'. lia.
Qed.
Lemma sum_get : forall {V} (f : str * V -> nat) k v old m, ksorted m -> map_get k m = Some old ->
  list_sum (map f (bt_insert k v m)) + f (k, old) = list_sum (map f m) + f (k, v).
Proof.
  intros V f k v old m K. induction K as [|k' w m B K IH]; intros G; [discriminate G|]. cbn [map_get] in G. cbn [bt_insert]. unfold list_sum in *.
  destruct (str_eqb k k') eqn:E.
  - apply str_eqb_eq in E. subst k'. injection G as ->. rewrite str_cmp_refl. cbn [map fold_right]. lia.
  - destruct (str_cmp k k') eqn:C; cbn [map fold_right].
    + apply str_cmp_eq in C. subst k'. rewrite str_eqb_refl in E. discriminate E.
    + exfalso. apply map_get_in in G. unfold below in B. rewrite Forall_forall in B. specialize (B _ G). cbn [fst] in B.
      rewrite str_cmp_antisym, C in B. discriminate B.
    + specialize (IH G). lia.
Qed.

(** ** Parsed data *)
Definition pparam_data (q : pparam) : nat := octets (pp_key q) + match pp_val q with Some v => octets v | None => 0 end.
Definition pprop_data (p : pprop) : nat := octets (Parser.pr_name p) + list_sum (map pparam_data (pr_params p)) + octets (pr_val p).
Definition pprop_items (p : pprop) : nat := 1 + length (pr_params p).
Fixpoint pcomp_data (c : pcomp) : nat :=
  match c with mk_pcomp n ps cs => octets n + list_sum (map pprop_data ps) + list_sum (map pcomp_data cs) end.
Fixpoint pcomp_items (c : pcomp) : nat :=
  match c with mk_pcomp n ps cs => 1 + list_sum (map pprop_items ps) + list_sum (map pcomp_items cs) end.

Lemma conv_prop_data : forall p, prop_data (conv_prop p) <= pprop_data p.
Proof.
  intros p. unfold prop_data, pprop_data, conv_prop. cbn [p_key p_params p_val].
  assert (H : forall l m, list_sum (map (fun q : str * str => octets (fst q) + octets (snd q)) (fold_left (fun m q => hm_insert (fst q) (snd q) m) (map conv_param l) m))
    <= list_sum (map (fun q : str * str => octets (fst q) + octets (snd q)) m) + list_sum (map pparam_data l)); [|specialize (H (pr_params p) []); unfold list_sum in *; cbn [map fold_right] in H; lia].
  intros l. induction l as [|q l IH]; intros m; cbn [map fold_left]; [lia|]. etransitivity; [apply IH|].
  pose proof (sum_hm (fun q : str * str => octets (fst q) + octets (snd q)) (fst (conv_param q)) (snd (conv_param q)) m) as S. cbn [fst snd] in S.
  unfold list_sum in *. cbn [fold_right]. unfold pparam_data at 2. unfold conv_param in S. cbn [fst snd] in S. unfold conv_param. cbn [fst snd]. destruct (pp_val q); [lia|]. change (octets []) with 0 in S. lia.
Qed.
Lemma conv_prop_items : forall p, prop_items (conv_prop p) <= pprop_items p.
Proof.
  intros p. unfold prop_items, pprop_items, conv_prop. cbn [p_params].
  assert (H : forall l (m : list (str * str)), length (fold_left (fun m q => hm_insert (fst q) (snd q) m) (map conv_param l) m) <= length m + length l);
    [|apply le_n_S, (H (pr_params p) [])].
  assert (G : forall k v (m : list (str * str)), length (hm_insert k v m) <= S (length m)).
  { intros k v m. induction m as [|[k' w] m IH]; cbn [hm_insert length]; [lia|]. destruct (str_eqb k k'); cbn [length]; lia. }
  intros l. induction l as [|q l IH]; intros m; cbn [map fold_left length]; [lia|]. etransitivity; [apply IH|]. specialize (G (fst (conv_param q)) (snd (conv_param q)) m). lia.
Qed.
(** A sum over the properties of a component, before and after the conversion. *)
Section Sum.
  Variables (f : property -> nat) (g : pprop -> nat).
  Hypothesis fg : forall p, f (conv_prop p) <= g p.
  Let F1 := fun e : str * property => f (snd e).
  Let F2 := fun e : str * list property => list_sum (map f (snd e)).
  Lemma sum_single : forall l m, list_sum (map F1 (fold_left (fun m p => bt_insert (Parser.pr_name p) (conv_prop p) m) l m)) <= list_sum (map F1 m) + list_sum (map g l).
  Proof.
    intros l. induction l as [|p l IH]; intros m; cbn [map fold_left]; [lia|]. etransitivity; [apply IH|].
    pose proof (sum_bt F1 (Parser.pr_name p) (conv_prop p) m) as S. specialize (fg p). unfold F1 in S at 3. cbn [snd] in S. unfold list_sum in *. cbn [fold_right]. lia.
  Qed.
  Lemma sum_multi : forall l i, ksorted (i_multi i) -> list_sum (map F2 (i_multi (fold_left insert_multi (map conv_prop l) i))) <= list_sum (map F2 (i_multi i)) + list_sum (map g l).
  Proof.
    intros l. induction l as [|p l IH]; intros i K; cbn [map fold_left]; [lia|]. etransitivity; [apply IH; cbn [insert_multi i_multi]; now apply bt_insert_sorted|].
    specialize (fg p). assert (S : list_sum (map F2 (i_multi (insert_multi i (conv_prop p)))) <= list_sum (map F2 (i_multi i)) + f (conv_prop p));
      [|unfold list_sum in *; cbn [fold_right]; lia].
    unfold insert_multi. cbn [i_multi]. destruct (map_get (p_key (conv_prop p)) (i_multi i)) as [old|] eqn:G.
    - pose proof (sum_get F2 _ (old ++ [conv_prop p]) old _ K G) as S. unfold F2 in S at 2 4. cbn [snd] in S. rewrite map_app, list_sum_app in S. cbn [map list_sum fold_right] in S.
      unfold list_sum in *. cbn [fold_right] in S. lia.
    - pose proof (sum_bt F2 (p_key (conv_prop p)) [conv_prop p] (i_multi i)) as S. unfold F2 in S at 3. cbn [snd map list_sum fold_right] in S. unfold list_sum in *. cbn [fold_right] in *. lia.
  Qed.
  Lemma sum_split : forall (h : pprop -> bool) ps, list_sum (map g (filter h ps)) + list_sum (map g (filter (fun p => negb (h p)) ps)) = list_sum (map g ps).
  Proof. intros h ps. induction ps as [|p ps IH]; [easy|]. unfold list_sum in *. cbn [filter map fold_right]. destruct (h p); cbn [negb map fold_right]; lia. Qed.
  Lemma sum_conv : forall n ps cs, list_sum (map F1 (i_props (conv_inner (mk_pcomp n ps cs)))) + list_sum (map F2 (i_multi (conv_inner (mk_pcomp n ps cs))))
    <= list_sum (map g ps).
  Proof.
    intros n ps cs. rewrite <- (sum_split is_multi). cbn [conv_inner]. rewrite insert_multi_props. cbn [i_props].
    match goal with |- context [fold_left insert_multi _ ?i] => pose proof (sum_multi (filter is_multi ps) i ltac:(constructor)) as A end. cbn [i_multi map] in A.
    pose proof (sum_single (filter (fun p => negb (is_multi p)) ps) []) as B. unfold list_sum in *. cbn [map fold_right] in A, B. lia.
  Qed.
End Sum.
Lemma sum_le : forall {A} (f g : A -> nat) l, Forall (fun x => f x <= g x) l -> list_sum (map f l) <= list_sum (map g l).
Proof. intros A f g l H. unfold list_sum. induction H; cbn [map fold_right]; lia. Qed.
Lemma conv_data : forall c, octets (pc_name c) + inner_data (conv_inner c) <= pcomp_data c.
Proof.
  induction c as [n ps cs IH] using pcomp_deep. cbn [pc_name pcomp_data]. pose proof (sum_conv prop_data pprop_data conv_prop_data n ps cs) as S.
  pose proof (conv_inner_comps n ps cs) as C. destruct (conv_inner (mk_pcomp n ps cs)) as [ps' ms' cs']. cbn [i_props i_multi i_comps inner_data] in *. subst cs'.
  rewrite map_map. cbn [fst snd]. apply sum_le in IH. lia.
Qed.
Lemma conv_items : forall c, inner_items (conv_inner c) <= pcomp_items c.
Proof.
  induction c as [n ps cs IH] using pcomp_deep. cbn [pcomp_items]. pose proof (sum_conv prop_items pprop_items conv_prop_items n ps cs) as S.
  pose proof (conv_inner_comps n ps cs) as C. destruct (conv_inner (mk_pcomp n ps cs)) as [ps' ms' cs']. cbn [i_props i_multi i_comps inner_items] in *. subst cs'.
  rewrite map_map. cbn [fst snd]. apply sum_le in IH. lia.
Qed.

(** ** The text *)
Section Text.
  Context {U : Unicode}.
  Lemma param_le : forall q s rest, param_read q s rest -> pparam_data q + 1 <= octets s.
  Proof.
    intros q s rest H. inversion H as [k o w t r B K V|k w r B K]; subst; unfold pparam_data; cbn [pp_key pp_val]; rewrite octets_cons, !octets_app;
      change (octets [SEMI]) with 1; [|lia]. rewrite (octets_cons EQUALS). change (octets [EQUALS]) with 1.
    inversion V as [v ? N D|v ? N S C E X|]; subst; [rewrite (octets_cons DQ), octets_app|..]; lia.
  Qed.
  Lemma params_le : forall qs s rest, params_read qs s rest -> list_sum (map pparam_data qs) + length qs <= octets s.
  Proof.
    intros qs s rest H. induction H as [|q qs s t rest P _ IH]; [cbn; lia|]. apply param_le in P. rewrite octets_app. unfold list_sum in *. cbn [map fold_right length]. lia.
  Qed.
  Lemma after_break_le : forall a r, after_break a r -> octets r <= octets a.
  Proof. intros a r [(b & _ & ->)|[_ ->]]; [rewrite octets_app; lia|lia]. Qed.
  Lemma after_breaks_le : forall a r, after_breaks a r -> octets r <= octets a.
  Proof. intros a r (b & _ & -> & _). rewrite octets_app. lia. Qed.
  Lemma prop_le : forall i p r, prop_reads i p r -> pprop_data p + octets r <= octets i
    /\ (pprop_items p + octets r <= octets i \/ pprop_items p = 1 /\ exists k b, i = k ++ b ++ r /\ longest_name i k).
  Proof.
    intros i p r (_ & rest & A & [(w & k & qs & t & v & -> & _ & _ & P & _ & ->)|(_ & k & -> & K & E & ->)]); pose proof (after_break_le _ _ A) as L.
    - apply params_le in P. pose proof (decode_le k qs v) as D. unfold pprop_data, pprop_items. cbn [Parser.pr_name pr_params pr_val].
      rewrite !octets_app, (octets_cons COLON), octets_app. change (octets [COLON]) with 1. split; [lia|]. left. lia.
    - unfold pprop_data, pprop_items. cbn [Parser.pr_name pr_params pr_val map list_sum fold_right length]. rewrite octets_app. change (octets []) with 0. split; [lia|].
      right. split; [easy|]. destruct A as [(b & _ & ->)|[_ ->]]; [exists k, b|exists k, []]; (split; [easy|]); [exists (b ++ r)|exists rest]; easy.
  Qed.
  Lemma octets_pos : forall s, s <> [] -> 1 <= octets s.
  Proof. intros [|c s] H; [easy|]. rewrite octets_cons. assert (1 <= octets [c]); [|lia]. rewrite octets_blen. cbn [blen]. pose proof (utf8_len_bounds c). lia. Qed.
  Lemma item_le : forall i p r, item_reads i p r -> pprop_data p + octets r <= octets i /\ (r <> i \/ begins i -> pprop_items p + octets r <= octets i).
  Proof.
    intros i p r R. assert (X : r <> i \/ begins i -> r <> i).
    { intros [X|X]; [easy|]. intros ->. now apply (begin_not_self i p). }
    destruct R as (j & H & B). apply prop_le in H as [D I]. pose proof (after_breaks_le _ _ B) as L. split; [lia|]. intros Y. apply X in Y.
    destruct I as [I|[I (k & b & E & _)]]; [lia|]. rewrite I. destruct B as (b2 & _ & -> & _). subst i. rewrite !octets_app.
    assert (k ++ b ++ b2 <> []) as P; [|apply octets_pos in P; rewrite !octets_app in P; lia]. intros Z. apply app_eq_nil in Z as [-> Z]. apply app_eq_nil in Z as [-> ->].
    now apply Y.
  Qed.
  Lemma reads_le : (forall i c r, comp_reads i c r -> pcomp_data c + octets r <= octets i /\ pcomp_items c + octets r <= octets i)
    /\ (forall n i ps cs r, body_reads n i ps cs r ->
          list_sum (map pprop_data ps) + list_sum (map pcomp_data cs) + octets r <= octets i
          /\ list_sum (map pprop_items ps) + list_sum (map pcomp_items cs) + octets r <= octets i)
    /\ (forall i, comp_stuck i -> begins i) /\ (forall i, body_stuck i -> True).
  Proof.
    apply reads_mutind; try (intros; exact I).
    - intros kb n i j ps cs r K _ _ B _ [D I]. apply after_breaks_le in B. cbn [pcomp_data pcomp_items]. rewrite !octets_app.
      assert (kb <> []) as P by (intros ->; discriminate K). apply octets_pos in P. lia.
    - intros n ke i r _ B. apply after_breaks_le in B. rewrite !octets_app. cbn [map list_sum fold_right]. lia.
    - intros n i c j ps cs r _ [D1 I1] _ [D2 I2]. unfold list_sum in *. cbn [map fold_right]. lia.
    - intros n i p j ps cs r _ _ H X _ [D2 I2]. apply item_le in H as [D1 I1]. specialize (I1 (or_introl X)). unfold list_sum in *. cbn [map fold_right]. lia.
    - intros n i p j ps cs r _ X H _ [D2 I2]. apply item_le in H as [D1 I1]. specialize (I1 (or_intror X)). unfold list_sum in *. cbn [map fold_right]. lia.
    - intros kb n i j K _ _ _ _ _. exists kb, (n ++ i). now split.
  Qed.
  Lemma text_le : forall i c r, text_reads i c r -> pcomp_data c <= octets i /\ pcomp_items c <= octets i.
  Proof. intros i c r (j & B & H). apply after_breaks_le in B. apply reads_le in H. lia. Qed.
  Lemma cc_le : forall c, cc_data (conv_cc c) <= pcomp_data c /\ inner_items (cc_inner (conv_cc c)) <= pcomp_items c.
  Proof. intros c. unfold cc_data. destruct (conv_cc_kind c) as [-> ->]. split; [apply conv_data|apply conv_items]. Qed.
  Theorem calendar_small : forall s c, calendar_from_str s = Ok c -> cal_data c <= octets s /\ cal_items c <= S (octets s).
  Proof.
    intros s c H. pose proof (unfolds_le s (unfold s) (unfold_unfolds s)) as L. unfold calendar_from_str in H.
    destruct (read_calendar (unfold s)) as [k|?|] eqn:E; cbn [rmap] in H; try discriminate H. injection H as <-. unfold cal_data, cal_items, conv_cal. cbn [c_props c_comps].
    rewrite !map_map.
    apply (proj1 (read_calendar_exact _)) in E as [(ps & cs & R & ->)|[(d & R & _ & ->)|[_ ->]]]; cbn [pcal_props pcal_comps].
    - apply text_le in R as [D I]. cbn [pcomp_data pcomp_items] in D, I.
      pose proof (sum_le (fun x => prop_data (conv_prop x)) pprop_data ps ltac:(apply Forall_forall; intros x _; apply conv_prop_data)).
      pose proof (sum_le (fun x => prop_items (conv_prop x)) pprop_items ps ltac:(apply Forall_forall; intros x _; apply conv_prop_items)).
      pose proof (sum_le (fun x => cc_data (conv_cc x)) pcomp_data cs ltac:(apply Forall_forall; intros x _; apply cc_le)).
      pose proof (sum_le (fun x => inner_items (cc_inner (conv_cc x))) pcomp_items cs ltac:(apply Forall_forall; intros x _; apply cc_le)). lia.
    - apply text_le in R as [D I]. destruct (cc_le d). cbn [map list_sum fold_right]. lia.
    - cbn. lia.
  Qed.
  Theorem component_small : forall s c, cc_from_str s = Ok c -> cc_data c <= octets s /\ inner_items (cc_inner c) <= octets s.
  Proof.
    intros s c H. pose proof (unfolds_le s (unfold s) (unfold_unfolds s)) as L. unfold cc_from_str in H. destruct (read_component (unfold s)) as [k|?|] eqn:E; cbn [rmap] in H; try discriminate H. injection H as <-.
    apply read_component_exact in E as [r R]. apply text_le in R. pose proof (cc_le k). lia.
  Qed.
  Theorem property_small : forall s p, property_from_str s = Ok p -> prop_data p <= octets s /\ length (p_params p) <= octets s.
  Proof.
    intros s p H. unfold property_from_str in H. destruct (read_property s) as [q|?|] eqn:E; cbn [rmap] in H; try discriminate H. injection H as <-.
    pose proof (conv_prop_data q) as A. pose proof (conv_prop_items q) as B. unfold prop_items, pprop_items in B.
    assert (pprop_data q <= octets s /\ length (pr_params q) <= octets s); [|lia].
    apply read_property_exact in E as (_ & [(w & k & qs & t & v & rest & -> & _ & _ & P & _ & ->)|(_ & k & (rest & -> & _) & ->)]);
      unfold pprop_data; cbn [Parser.pr_name pr_params pr_val].
    - apply params_le in P. pose proof (decode_le k qs v). rewrite !octets_app, (octets_cons COLON), octets_app. lia.
    - rewrite octets_app. cbn. lia.
  Qed.
End Text.
