(** VALUE names; reader and writer agree on the value type. *)
From Verif Require Import Str StrFacts ValueTypes Property Chrono DateTime Component Calendar Nom Parser.
From Coq Require Import ZifyBool ZifyNat ZifyN.

Lemma assoc_lit_in : forall A s (t : list (string * A)) a, assoc_lit s t = Some a ->
  exists n, In (n, a) t /\ s = lit n.
Proof.
  induction t as [|[n a'] t IH]; cbn; intros a H; [easy|].
  destruct (str_eqb s (lit n)) eqn:E.
  - injection H as ->. apply str_eqb_eq in E. eauto.
  - apply IH in H as (m & H & ->). eauto.
Qed.
Lemma assoc_lit_none : forall A s (t : list (string * A)), assoc_lit s t = None ->
  forall n a, In (n, a) t -> s <> lit n.
Proof.
  induction t as [|[n a'] t IH]; cbn; intros H m a I; [easy|]. destruct I as [E|I].
  - injection E as -> ->. intros ->. now rewrite str_eqb_refl in H.
  - destruct (str_eqb s (lit n)); [easy|]. now apply (IH H m a).
Qed.

Lemma vt_spec : forall s t, vt_from_str s = Some t <-> exists n, In (n, t) registered /\ s = lit n.
Proof.
  intros s t. split.
  - apply assoc_lit_in.
  - intros (n & H & ->). cbn in H.
    repeat (destruct H as [H|H]; [injection H as <- <-; reflexivity|]). easy.
Qed.
Lemma vt_name_registered : forall t, exists n, In (n, t) registered /\ vt_name t = lit n.
Proof. intros []; cbn; eexists; split; try reflexivity; auto 20. Qed.
Lemma vt_round : forall t, vt_try_from_param (vt_to_param t) = Some t.
Proof. now intros []. Qed.
Lemma vt_key : forall k v, k <> lit "VALUE" -> vt_try_from_param (k, v) = None.
Proof.
  intros k v H. unfold vt_try_from_param. cbn [fst].
  destruct (str_eqb k (lit "VALUE")) eqn:E; [now apply str_eqb_eq in E|easy].
Qed.

Lemma find_map_get : forall k l,
  match find (fun q => str_eqb (pp_key q) k) l with
  | Some q => Some (match pp_val q with Some v => v | None => [] end)
  | None => None end = map_get k (map conv_param l).
Proof.
  induction l as [|[k1 v1] l IH]; [easy|]. cbn. rewrite (str_eqb_sym k1 k).
  now destruct (str_eqb k k1).
Qed.

Lemma value_type_agree : forall (U : Unicode) p,
  length (filter (fun q => str_eqb (pp_key q) (lit "VALUE")) (pr_params p)) <= 1 ->
  prop_value_type (conv_prop p) = determin_value_type (pr_name p) (pr_params p).
Proof.
  intros U [name v ps] H. cbn [pr_params pr_name] in *. unfold prop_value_type, determin_value_type, conv_prop.
  cbn [p_params p_key pr_params pr_name pr_val].
  rewrite map_get_hm_fold, map_get_rev.
  - rewrite <- find_map_get. destruct (find _ ps) as [q|] eqn:E; [|easy].
    destruct (pp_val q); [easy|]. reflexivity.
  - clear v. revert H. induction ps as [|[k1 v1] ps IH]; [easy|]. cbn [map filter conv_param pp_key fst].
    rewrite (str_eqb_sym k1). destruct (str_eqb (lit "VALUE") k1); cbn [length]; intros H.
    + assert (L : forall l, length (filter (fun q => str_eqb (lit "VALUE") (fst q)) (map conv_param l))
              = length (filter (fun q => str_eqb (pp_key q) (lit "VALUE")) l)).
      { clear. induction l as [|[k1 v1] l IH]; [easy|]. cbn [map filter conv_param pp_key fst].
        rewrite (str_eqb_sym k1). destruct (str_eqb (lit "VALUE") k1); cbn [length]; now rewrite IH. }
      now rewrite L.
    + auto.
Qed.

(** The value read is decoded exactly when, printed again, it is encoded. *)
Lemma text_agree : forall (U : Unicode) name ps v,
  length (filter (fun q => str_eqb (pp_key q) (lit "VALUE")) ps) <= 1 ->
  let p := mk_pprop name v ps in
  (determin_value_type name ps = Some Text /\ value_text (conv_prop p) = Text.escape_text v
   /\ decode_value name ps v = Text.unescape_text v)
  \/ (determin_value_type name ps <> Some Text /\ value_text (conv_prop p) = v
      /\ decode_value name ps v = v).
Proof.
  intros U name ps v H p. pose proof (value_type_agree U p H) as A. cbn in A.
  unfold value_text, decode_value. rewrite A.
  destruct (determin_value_type name ps) as [[]|]; cbn; auto; right; repeat split; auto; discriminate.
Qed.

Lemma value_names :
  (forall t, vt_try_from_param (vt_to_param t) = Some t)
  /\ (forall t, exists n, In (n, t) registered /\ vt_to_param t = (lit "VALUE", lit n))
  /\ (forall s t, vt_try_from_param (lit "VALUE", s) = Some t
                  <-> exists n, In (n, t) registered /\ s = lit n)
  /\ (forall k v, k <> lit "VALUE" -> vt_try_from_param (k, v) = None).
Proof.
  split; [apply vt_round|]. split; [|split; [exact vt_spec|exact vt_key]].
  intros t. destruct (vt_name_registered t) as (n & H & E). exists n. unfold vt_to_param. now rewrite E.
Qed.
