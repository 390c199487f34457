(** Conversion of parsed components. *)
From Verif Require Import Str StrFacts Fold Text ValueTypes Property Chrono DateTime Component Alarm Calendar Nom Parser
  SpecBuild SpecDate SpecTree SpecDoc SpecConv BuildProofs ValueProofs TreeProofs.
From Coq Require Import ZifyBool ZifyNat ZifyN.

Lemma find_last_of : forall A (key : A -> str) k l,
  match find (fun x => str_eqb (key x) k) (rev l) with
  | Some x => last_of key k l x
  | None => Forall (fun x => key x <> k) l
  end.
Proof.
  intros A key k. induction l as [|x l IH]; [constructor|]. cbn [rev]. rewrite find_app.
  destruct (find _ (rev l)) as [y|].
  - destruct IH as (a & b & -> & K & F). now exists (x :: a), b.
  - cbn [find]. destruct (str_eqb (key x) k) eqn:E.
    + apply str_eqb_eq in E. now exists [], l.
    + apply str_eqb_neq in E. now constructor.
Qed.
Lemma last_of_find : forall A (key : A -> str) k l x, last_of key k l x ->
  find (fun x => str_eqb (key x) k) (rev l) = Some x.
Proof.
  intros A key k l x (a & b & -> & K & F). rewrite rev_app_distr, find_app. cbn [rev]. rewrite find_app.
  assert (find (fun x => str_eqb (key x) k) (rev b) = None) as ->.
  { apply Forall_rev in F. induction F as [|y r N _ IH]; [easy|]. cbn [find]. apply str_eqb_neq in N. now rewrite N. }
  cbn [find]. apply str_eqb_eq in K. now rewrite K.
Qed.
Lemma last_of_fun : forall A (key : A -> str) k l x y, last_of key k l x -> last_of key k l y -> x = y.
Proof. intros A key k l x y H1 H2. apply last_of_find in H1, H2. congruence. Qed.

Lemma picked_filter : forall A (key : A -> str) k l, picked key k l (filter (fun x => str_eqb (key x) k) l).
Proof.
  intros A key k. induction l as [|x l IH]; cbn [filter]; [constructor|].
  destruct (str_eqb (key x) k) eqn:E; constructor; try easy.
  - now apply str_eqb_eq.
  - now apply str_eqb_neq.
Qed.

Lemma map_get_find : forall V k (l : list (str * V)), map_get k l = option_map snd (find (fun q => str_eqb (fst q) k) l).
Proof.
  intros V k. induction l as [|[k1 v1] l IH]; [easy|]. cbn. rewrite (str_eqb_sym k k1). now destruct (str_eqb k1 k).
Qed.
Lemma find_map : forall A B (f : A -> B) (g : B -> bool) l, find g (map f l) = option_map f (find (fun x => g (f x)) l).
Proof. intros A B f g. induction l as [|x l IH]; [easy|]. cbn. now destruct (g (f x)). Qed.
Lemma find_ext : forall A (f g : A -> bool) l, (forall x, In x l -> f x = g x) -> find f l = find g l.
Proof.
  intros A f g. induction l as [|x l IH]; intros H; [easy|]. cbn. rewrite H by now left.
  destruct (g x); [easy|]. apply IH. intros y I. apply H. now right.
Qed.

Lemma hm_fold_nodup : forall V l (m : list (str * V)), NoDup (map fst m) ->
  NoDup (map fst (fold_left (fun m q => hm_insert (fst q) (snd q) m) l m)).
Proof. induction l as [|q l IH]; intros m H; [easy|]. cbn [fold_left]. apply IH. now apply hm_insert_keys. Qed.
Lemma nodup_get : forall V (m : list (str * V)) k v, NoDup (map fst m) -> In (k, v) m -> map_get k m = Some v.
Proof.
  induction m as [|[k1 v1] m IH]; intros k v N I; [easy|]. cbn [map fst] in N. inversion N as [|? ? N1 N2]; subst.
  cbn. destruct I as [I|I].
  - injection I as <- <-. now rewrite str_eqb_refl.
  - destruct (str_eqb k k1) eqn:E; [|now apply IH]. apply str_eqb_eq in E as <-. destruct N1. now apply (in_map fst) in I.
Qed.

Lemma conv_prop_says : forall q, says q (conv_prop q).
Proof.
  intros q. unfold conv_prop. split; [easy|]. split; [easy|].
  set (m := p_params _). cbn [p_params] in m. assert (N : NoDup (map fst m)) by (apply hm_fold_nodup; constructor).
  assert (G : forall k, map_get k m = option_map (fun a => match pp_val a with Some w => w | None => [] end)
    (find (fun a => str_eqb (pp_key a) k) (rev (pr_params q)))).
  { intros k. unfold m. rewrite map_get_hm_fold. cbn [map_get]. rewrite map_get_find, <- map_rev, find_map. cbn [conv_param fst].
    now destruct (find _ _). }
  split; [easy|]. intros k v. split.
  - intros I. apply nodup_get in I; [|easy]. rewrite G in I. pose proof (find_last_of _ pp_key k (pr_params q)) as L.
    destruct (find _ _) as [a|]; [|easy]. injection I as <-. eauto.
  - intros (a & L & ->). apply map_get_in. rewrite G, (last_of_find _ _ _ _ _ L). easy.
Qed.

Lemma is_multi_name_spec : forall k, is_multi_name k = true <-> multi_name k.
Proof.
  intros k. unfold is_multi_name, multi_name. rewrite existsb_exists. split; intros (m & I & E); exists m; split; try easy.
  - now apply str_eqb_eq.
  - subst. apply str_eqb_refl.
Qed.

Lemma conv_inner_single : forall n ps cs k,
  map_get k (i_props (conv_inner (mk_pcomp n ps cs)))
  = if is_multi_name k then None else option_map conv_prop (find (fun q => str_eqb (pr_name q) k) (rev ps)).
Proof.
  intros n ps cs k. cbn [conv_inner]. rewrite insert_multi_props. cbn [i_props].
  change (@nil (str * property)) with (i_props inner_new). rewrite conv_props_append, get_appends.
  unfold last_with. rewrite <- map_rev, find_map. change (map_get k (i_props inner_new)) with (@None property).
  assert (F : find (fun x => str_eqb (p_key (conv_prop x)) k) (rev (filter (fun p => negb (is_multi p)) ps))
    = if is_multi_name k then None else find (fun q => str_eqb (pr_name q) k) (rev ps)).
  { cbn [conv_prop p_key]. induction ps as [|p ps IH]; cbn [filter rev]; [now destruct (is_multi_name k)|].
    rewrite find_app. destruct (is_multi p) eqn:M; cbn [negb].
    - rewrite IH. destruct (is_multi_name k) eqn:K; [easy|]. destruct (find _ (rev ps)); [easy|]. cbn [find].
      destruct (str_eqb (pr_name p) k) eqn:E; [|easy]. apply str_eqb_eq in E as <-. unfold is_multi in M. congruence.
    - cbn [rev]. rewrite find_app, IH. destruct (is_multi_name k) eqn:K; [|easy]. cbn [find].
      destruct (str_eqb (pr_name p) k) eqn:E; [|easy]. apply str_eqb_eq in E as <-. unfold is_multi in M. congruence. }
  rewrite F. clear F. destruct (is_multi_name k); [easy|]. now destruct (find _ _).
Qed.
Lemma conv_inner_multi : forall n ps cs k,
  map_get k (i_multi (conv_inner (mk_pcomp n ps cs)))
  = if is_multi_name k
    then match map conv_prop (filter (fun q => str_eqb (pr_name q) k) ps) with [] => None | l => Some l end
    else None.
Proof.
  intros n ps cs k. cbn [conv_inner]. rewrite insert_multis_get. cbn [i_multi map_get].
  assert (F : filter (fun q => str_eqb (p_key q) k) (map conv_prop (filter is_multi ps))
    = if is_multi_name k then map conv_prop (filter (fun q => str_eqb (pr_name q) k) ps) else []).
  { induction ps as [|p ps IH]; cbn [filter map]; [now destruct (is_multi_name k)|]. destruct (is_multi p) eqn:M.
    - cbn [map filter]. rewrite IH. cbn [conv_prop p_key]. destruct (str_eqb (pr_name p) k) eqn:E; [|easy].
      apply str_eqb_eq in E as <-. unfold is_multi in M. now rewrite M.
    - rewrite IH. destruct (is_multi_name k) eqn:K; [|easy]. destruct (str_eqb (pr_name p) k) eqn:E; [|easy].
      apply str_eqb_eq in E as <-. unfold is_multi in M. congruence. }
  rewrite F. clear F. destruct (is_multi_name k); [|easy]. now destruct (map conv_prop _).
Qed.

Lemma conv_inner_keeps : forall c, keeps c (conv_inner c).
Proof.
  induction c as [n ps cs IH] using pcomp_deep. constructor.
  - intros k N. rewrite conv_inner_single, conv_inner_multi.
    assert (is_multi_name k = false) as ->.
    { destruct (is_multi_name k) eqn:E; [|easy]. now apply is_multi_name_spec in E. }
    split; [|easy]. pose proof (find_last_of _ pr_name k ps) as L. destruct (find _ _) as [q|]; [|easy].
    cbn [option_map]. exists q. split; [easy|apply conv_prop_says].
  - intros k M. rewrite conv_inner_single, conv_inner_multi. apply is_multi_name_spec in M. rewrite M. split; [|easy].
    pose proof (picked_filter _ pr_name k ps) as P.
    destruct (filter (fun q => str_eqb (pr_name q) k) ps) as [|q qs] eqn:E; cbn [map].
    + clear - P. remember [] as r eqn:R. induction P; try easy. constructor; auto.
    + exists (q :: qs). split; [easy|]. split; [easy|].
      change (conv_prop q :: map conv_prop qs) with (map conv_prop (q :: qs)). clear.
      induction (q :: qs) as [|x l IH]; constructor; [apply conv_prop_says|easy].
  - rewrite conv_inner_comps. induction IH as [|c cs H _ IH]; constructor; easy.
Qed.

(** ** Kinds *)

Lemma conv_cc_kind : forall c, cc_kind (conv_cc c) = pc_name c /\ cc_inner (conv_cc c) = conv_inner c.
Proof.
  intros c. unfold conv_cc. destruct (str_eqb _ (lit "VEVENT")) eqn:E; [apply str_eqb_eq in E; now rewrite E|].
  destruct (str_eqb _ (lit "VTODO")) eqn:F; [apply str_eqb_eq in F; now rewrite F|].
  destruct (str_eqb _ (lit "VVENUE")) eqn:G; [apply str_eqb_eq in G; now rewrite G|]. easy.
Qed.
Lemma conv_cc_typed : forall c,
  (pc_name c = lit "VEVENT" -> exists i, conv_cc c = CEvent i /\ keeps c i)
  /\ (pc_name c = lit "VTODO" -> exists i, conv_cc c = CTodo i /\ keeps c i)
  /\ (pc_name c = lit "VVENUE" -> exists i, conv_cc c = CVenue i /\ keeps c i)
  /\ (pc_name c <> lit "VEVENT" -> pc_name c <> lit "VTODO" -> pc_name c <> lit "VVENUE" ->
      exists i, conv_cc c = COther (pc_name c, i) /\ keeps c i).
Proof.
  intros c. pose proof (conv_inner_keeps c) as K. unfold conv_cc. repeat apply conj.
  - intros ->. exists (conv_inner c). split; [reflexivity|easy].
  - intros ->. exists (conv_inner c). split; [reflexivity|easy].
  - intros ->. exists (conv_inner c). split; [reflexivity|easy].
  - intros A B C. apply str_eqb_neq in A, B, C. rewrite A, B, C. eauto.
Qed.
Lemma conv_cc_text : forall (U : Unicode) e c n s n', clock_ok e -> cc_write e (conv_cc c) n = Ret (s, n') ->
  exists t, arranged e (pc_name c) (conv_inner c) t /\ text_of t s.
Proof.
  intros U e c n s n' C H. unfold cc_write in H. destruct (conv_cc_kind c) as [K I]. rewrite K, I in H.
  eapply component_text; eauto. apply made_parsed.
Qed.
