(** Histories of builder calls. *)
From Verif Require Import Str StrFacts ValueTypes Property Chrono DateTime Component Alarm SpecBuild ValueProofs.
From Coq Require Import ZifyBool ZifyNat ZifyN.

Lemma property_value_append : forall i p k,
  property_value (append_property i p) k
  = if str_eqb k (p_key p) then Some (p_val p) else property_value i k.
Proof.
  intros i p k. unfold property_value, append_property. cbn [i_props].
  destruct (str_eqb k (p_key p)) eqn:E.
  - apply str_eqb_eq in E as ->. now rewrite map_get_bt_same.
  - rewrite map_get_bt_other; [easy|]. intros ->. now rewrite str_eqb_refl in E.
Qed.

Lemma do_call_sets : forall c i, i_props (do_call i c) = i_props (fold_left append_property (sets c) i).
Proof.
  intros c i. destruct c; try reflexivity; try (destruct x as [[]|]; reflexivity); try (destruct c; reflexivity);
    destruct s; reflexivity.
Qed.
Lemma get_appends : forall l i k, map_get k (i_props (fold_left append_property l i))
  = match last_with k l with Some p => Some p | None => map_get k (i_props i) end.
Proof.
  induction l as [|p l IH]; intros i k; [easy|]. cbn [fold_left]. rewrite IH. unfold last_with.
  cbn [rev]. rewrite find_app. destruct (find _ (rev l)); [easy|]. cbn [find].
  destruct (str_eqb (p_key p) k) eqn:E.
  - apply str_eqb_eq in E as <-. unfold append_property. cbn [i_props]. apply map_get_bt_same.
  - unfold append_property. cbn [i_props]. rewrite map_get_bt_other; [easy|].
    intros ->. now rewrite str_eqb_refl in E.
Qed.
Lemma get_call : forall c i k, map_get k (i_props (do_call i c))
  = match last_with k (sets c) with Some p => Some p | None => map_get k (i_props i) end.
Proof. intros. now rewrite do_call_sets, get_appends. Qed.
Lemma get_calls : forall l i k, map_get k (i_props (run_calls l i))
  = match last_with k (flat_map sets l) with Some p => Some p | None => map_get k (i_props i) end.
Proof.
  induction l as [|c l IH]; intros i k; [easy|]. cbn [run_calls fold_left flat_map].
  fold (run_calls l (do_call i c)). rewrite IH, get_call. unfold last_with.
  rewrite rev_app_distr, find_app. now destruct (find _ (rev (flat_map sets l))).
Qed.

(** Calls that set a property do not touch the rest. *)
Lemma do_call_multi : forall c i, i_multi (do_call i c) = i_multi (fold_left insert_multi (multis c) i).
Proof. destruct c; try reflexivity. Qed.
Lemma do_call_comps : forall c i, i_comps (do_call i c) = i_comps i ++ subs c.
Proof. destruct c; intros i; cbn; rewrite ?app_nil_r; try reflexivity. Qed.

Lemma comps_calls : forall l i, i_comps (run_calls l i) = i_comps i ++ flat_map subs l.
Proof.
  induction l as [|c l IH]; intros i; cbn; [now rewrite app_nil_r|].
  fold (run_calls l (do_call i c)). now rewrite IH, do_call_comps, app_assoc.
Qed.

Definition opt_app (o : option (list property)) (l : list property) : option (list property) :=
  match o, l with
  | None, [] => None
  | None, _ => Some l
  | Some v, _ => Some (v ++ l)
  end.
Lemma opt_app_app : forall o a b, opt_app (opt_app o a) b = opt_app o (a ++ b).
Proof. intros [v|] [|x a] b; cbn; rewrite ?app_nil_r, <- ?app_assoc; easy. Qed.

Lemma insert_multi_get : forall i p k, map_get k (i_multi (insert_multi i p))
  = opt_app (map_get k (i_multi i)) (filter (fun q => str_eqb (p_key q) k) [p]).
Proof.
  intros i p k. unfold insert_multi. cbn [i_multi filter].
  rewrite (str_eqb_sym (p_key p) k). destruct (str_eqb k (p_key p)) eqn:E.
  - apply str_eqb_eq in E as ->. rewrite map_get_bt_same. now destruct (map_get _ _).
  - rewrite map_get_bt_other by (intros ->; now rewrite str_eqb_refl in E).
    destruct (map_get k (i_multi i)); cbn; now rewrite ?app_nil_r.
Qed.
Lemma insert_multis_get : forall l i k, map_get k (i_multi (fold_left insert_multi l i))
  = opt_app (map_get k (i_multi i)) (filter (fun q => str_eqb (p_key q) k) l).
Proof.
  induction l as [|p l IH]; intros i k; cbn [fold_left].
  - cbn. destruct (map_get k (i_multi i)); cbn; now rewrite ?app_nil_r.
  - rewrite IH, insert_multi_get, opt_app_app. f_equal. cbn [filter].
    now destruct (str_eqb (p_key p) k).
Qed.
Lemma multi_calls : forall l i k, map_get k (i_multi (run_calls l i))
  = opt_app (map_get k (i_multi i)) (filter (fun q => str_eqb (p_key q) k) (flat_map multis l)).
Proof.
  induction l as [|c l IH]; intros i k; cbn [run_calls fold_left flat_map].
  - cbn. destruct (map_get k (i_multi i)); cbn; now rewrite ?app_nil_r.
  - fold (run_calls l (do_call i c)).
    rewrite IH, do_call_multi, insert_multis_get, opt_app_app, filter_app. easy.
Qed.

(** ** The invariant of the maps *)

Record built (i : inner) : Prop :=
  { b_props : ksorted (i_props i);
    b_keys : Forall (fun '(k, p) => p_key p = k) (i_props i);
    b_multi : ksorted (i_multi i);
    b_multi_keys : Forall (fun '(k, ps) => ps <> [] /\ Forall (fun p => p_key p = k) ps) (i_multi i) }.

Lemma bt_insert_Forall : forall V (P : str * V -> Prop) k v m,
  P (k, v) -> Forall P m -> Forall P (bt_insert k v m).
Proof.
  intros V P k v. induction m as [|[k1 v1] m IH]; intros H F; cbn; [now constructor|].
  inversion F; subst. destruct (str_cmp k k1); constructor; auto.
Qed.

Lemma built_new : built inner_new.
Proof. split; constructor. Qed.
Lemma built_append : forall i p, built i -> built (append_property i p).
Proof.
  intros i p [H1 H2 H3 H4]. split; cbn; try easy.
  - now apply bt_insert_sorted.
  - apply bt_insert_Forall; auto.
Qed.
Lemma built_comps : forall i cs, built i -> built (mk_inner (i_props i) (i_multi i) cs).
Proof. intros i cs [H1 H2 H3 H4]. now split. Qed.
Lemma built_multi : forall i p, built i -> built (insert_multi i p).
Proof.
  intros i p [H1 H2 H3 H4]. split; cbn; try easy.
  - now apply bt_insert_sorted.
  - apply bt_insert_Forall; auto. destruct (map_get (p_key p) (i_multi i)) as [v|] eqn:E.
    + apply map_get_in in E. rewrite Forall_forall in H4. apply H4 in E as [_ E].
      split; [now destruct v|]. apply Forall_app. auto.
    + split; [easy|]. auto.
Qed.
Lemma built_call : forall c i, built i -> built (do_call i c).
Proof.
  intros c i H. destruct c; cbn;
    try (now apply built_append); try (now apply built_multi); try (now apply built_comps).
  now apply built_append, built_append.
Qed.
Lemma built_calls : forall l i, built i -> built (run_calls l i).
Proof. induction l as [|c l IH]; intros i H; [easy|]. cbn. apply IH. now apply built_call. Qed.

(** ** Integers *)

Lemma priority_round : forall i n, get_priority (priority i n) = Some (N.min n 10).
Proof.
  intros i n. unfold get_priority, priority, add_property. rewrite property_value_append.
  cbn [p_key p_val prop_new]. rewrite str_eqb_refl.
  rewrite parse_uint_dec by (unfold U32_MAX; lia).
  now replace (N.min n 10 <=? 10)%N with true by lia.
Qed.
Lemma priority_range : forall i n, get_priority i = Some n -> (n <= 10)%N.
Proof.
  intros i n. unfold get_priority. destruct (property_value i _); [|easy].
  destruct (parse_uint _ _) as [m|]; [|easy]. destruct (m <=? 10)%N eqn:E; [|easy].
  intros H. injection H as <-. lia.
Qed.

Lemma last_write_wins : forall l k,
  map_get k (i_props (run_calls l inner_new)) = last_with k (flat_map sets l)
  /\ property_value (run_calls l inner_new) k = option_map p_val (last_with k (flat_map sets l)).
Proof.
  intros l k. pose proof (get_calls l inner_new k) as G.
  assert (E : map_get k (i_props (run_calls l inner_new)) = last_with k (flat_map sets l))
    by (rewrite G; now destruct (last_with k (flat_map sets l))).
  split; [easy|]. unfold property_value. rewrite E. now destruct (last_with k (flat_map sets l)).
Qed.
Lemma multi_order : forall l k, map_get k (i_multi (run_calls l inner_new))
  = match filter (fun q => str_eqb (p_key q) k) (flat_map multis l) with [] => None | ps => Some ps end.
Proof. intros l k. rewrite multi_calls. now destruct (filter _ _). Qed.
