(** Differences between texts that reading does not see. *)
From Verif Require Import Str StrFacts Fold Text ValueTypes Property Chrono DateTime Component Alarm Calendar Nom Parser
  SpecBuild SpecDate SpecTree SpecDoc SpecConv SpecAccess SpecAlike BuildProofs ValueProofs TreeProofs ConvProofs ParserProofs DocProofs.
From Coq Require Import ZifyBool ZifyNat ZifyN.

Lemma conv_prop_alike : forall q r, reordered (conv_prop q) (conv_prop r) <-> alike_prop q r.
Proof.
  intros q r. destruct (conv_prop_says q) as (K & V & N & P), (conv_prop_says r) as (K' & V' & N' & P').
  unfold reordered, alike_prop. rewrite K, V, K', V'. split; intros (E1 & E2 & E3); (split; [easy|]; split; [easy|]).
  - intros k v. unfold param_says. rewrite <- P, <- P'. split; apply Permutation_in; [easy|now symmetry].
  - apply NoDup_Permutation; try now apply NoDup_map_inv with (f := fst). intros [k v]. rewrite P, P'. apply E3.
Qed.
Lemma alike_refl_prop : forall q, alike_prop q q.
Proof. intros q. repeat split; easy. Qed.

Lemma last_none : forall A (key : A -> str) k l, Forall (fun x => key x <> k) l -> forall x, ~ last_of key k l x.
Proof. intros A key k l F x (a & b & -> & K & _). apply Forall_app in F as [_ F]. now inversion F. Qed.
Lemma picked_fun : forall A (key : A -> str) k l r, picked key k l r -> r = filter (fun x => str_eqb (key x) k) l.
Proof.
  intros A key k l r P. induction P as [|x l r E _ ->|x l r E _ ->]; cbn [filter]; [easy| |].
  - apply str_eqb_eq in E. now rewrite E.
  - apply str_eqb_neq in E. now rewrite E.
Qed.
Lemma forall2_map : forall A B (R : B -> B -> Prop) (f : A -> B) l m, Forall2 R (map f l) (map f m) <-> Forall2 (fun x y => R (f x) (f y)) l m.
Proof.
  intros A B R f. induction l as [|x l IH]; intros [|y m]; cbn [map]; split; intros H; inversion H; subst; constructor; try easy; now apply IH.
Qed.
Lemma forall2_iff : forall A B (R S : A -> B -> Prop) l m, (forall x y, R x y <-> S x y) -> Forall2 R l m <-> Forall2 S l m.
Proof. intros A B R S l m H. split; intros F; induction F; constructor; try easy; now apply H. Qed.

Lemma conv_alike : forall c d, pc_name c = pc_name d -> (same_inner (conv_inner c) (conv_inner d) <-> alike c d).
Proof.
  induction c as [n ps cs IH] using pcomp_deep. intros [n' qs ds] E. cbn [pc_name] in E. subst n'.
  assert (C : Forall2 (fun c d : str * inner => fst c = fst d /\ same_inner (snd c) (snd d)) (i_comps (conv_inner (mk_pcomp n ps cs))) (i_comps (conv_inner (mk_pcomp n qs ds)))
    <-> Forall2 alike cs ds).
  { rewrite !conv_inner_comps, forall2_map. cbn [fst snd]. revert ds. induction IH as [|c cs H _ IHl]; intros [|d ds]; split; intros F; inversion F; subst; constructor; try (now apply IHl).
    - apply H; tauto.
    - assert (pc_name c = pc_name d) by (inversion H3; easy). split; [easy|]. now apply H. }
  assert (S : (forall k, opt_rel reordered (map_get k (i_props (conv_inner (mk_pcomp n ps cs)))) (map_get k (i_props (conv_inner (mk_pcomp n qs ds)))))
    <-> forall k, ~ multi_name k -> (forall q, last_of pr_name k ps q -> exists r, last_of pr_name k qs r /\ alike_prop q r)
       /\ (forall r, last_of pr_name k qs r -> exists q, last_of pr_name k ps q)).
  { split; intros H k.
    - intros M. specialize (H k). rewrite !conv_inner_single in H. rewrite <- is_multi_name_spec in M. apply not_true_is_false in M. rewrite M in H.
      pose proof (find_last_of _ pr_name k ps) as L. pose proof (find_last_of _ pr_name k qs) as L'.
      destruct (find _ (rev ps)) as [q|], (find _ (rev qs)) as [r|]; cbn [option_map] in H; inversion H; subst.
      + split; [|eauto]. intros q' Q. assert (q' = q) as -> by (eapply last_of_fun; eauto). exists r. split; [easy|]. now apply conv_prop_alike.
      + split; intros x X; exfalso; [apply (last_none _ _ _ _ L x X)|apply (last_none _ _ _ _ L' x X)].
    - rewrite !conv_inner_single. destruct (is_multi_name k) eqn:M; [constructor|].
      destruct (H k) as [H1 H2]; [rewrite <- is_multi_name_spec; congruence|].
      pose proof (find_last_of _ pr_name k ps) as L. pose proof (find_last_of _ pr_name k qs) as L'.
      destruct (find _ (rev ps)) as [q|], (find _ (rev qs)) as [r|]; cbn [option_map].
      + constructor. destruct (H1 q L) as (r' & R & A). assert (r' = r) as -> by (eapply last_of_fun; eauto). now apply conv_prop_alike. 
      + exfalso. destruct (H1 q L) as (r' & R & _). apply (last_none _ _ _ _ L' _ R).
      + exfalso. destruct (H2 r L') as (q' & Q). apply (last_none _ _ _ _ L _ Q).
      + constructor. }
  assert (T : (forall k, opt_rel (Forall2 reordered) (map_get k (i_multi (conv_inner (mk_pcomp n ps cs)))) (map_get k (i_multi (conv_inner (mk_pcomp n qs ds)))))
    <-> forall k, multi_name k -> exists l m, picked pr_name k ps l /\ picked pr_name k qs m /\ Forall2 alike_prop l m).
  { assert (Q : forall l m, Forall2 reordered (map conv_prop l) (map conv_prop m) <-> Forall2 alike_prop l m)
      by (intros l m; rewrite forall2_map; apply forall2_iff; intros; apply conv_prop_alike).
    split; intros H k.
    - intros M. specialize (H k). rewrite !conv_inner_multi in H. apply is_multi_name_spec in M. rewrite M in H.
      exists (filter (fun q => str_eqb (pr_name q) k) ps), (filter (fun q => str_eqb (pr_name q) k) qs). split; [apply picked_filter|]. split; [apply picked_filter|].
      apply Q. destruct (map conv_prop (filter _ ps)), (map conv_prop (filter _ qs)); inversion H; subst; [constructor|easy].
    - rewrite !conv_inner_multi. destruct (is_multi_name k) eqn:M; [|constructor]. apply is_multi_name_spec in M. destruct (H k M) as (l & m & L1 & L2 & F).
      apply picked_fun in L1, L2. subst l m. apply Q in F. destruct (map conv_prop (filter _ ps)), (map conv_prop (filter _ qs)); inversion F; subst; constructor; easy. }
  split; intros H.
  - inversion H as [? ? H1 H2 H3]; subst. constructor; [now apply S|now apply T|now apply C].
  - inversion H as [? ? ? ? ? H1 H2 H3]; subst. constructor; [now apply S|now apply T|now apply C].
Qed.
Lemma conv_cc_alike : forall c d, same_cc (conv_cc c) (conv_cc d) <-> alike c d.
Proof.
  intros c d. assert (E : pc_name c = pc_name d -> (same_cc (conv_cc c) (conv_cc d) <-> alike c d)).
  { intros E. rewrite <- conv_alike by easy. unfold conv_cc. rewrite <- E. repeat (destruct (str_eqb _ _); [easy|]). cbn [same_cc fst snd]. tauto. }
  split; intros H.
  - apply E; [|easy]. destruct (conv_cc_kind c) as [<- _], (conv_cc_kind d) as [<- _].
    destruct (conv_cc c) as [i|i|i|[m i]], (conv_cc d) as [j|j|j|[m' j]]; cbn in H; try easy.
  - apply E; [|easy]. now inversion H.
Qed.
Lemma conv_cal_alike : forall c d, same_cal (conv_cal c) (conv_cal d) <-> Forall2 alike_prop (pcal_props c) (pcal_props d) /\ Forall2 alike (pcal_comps c) (pcal_comps d).
Proof.
  intros c d. unfold same_cal, conv_cal. cbn [c_props c_comps]. rewrite !forall2_map.
  rewrite (forall2_iff _ _ _ alike_prop), (forall2_iff _ _ (fun x y => same_cc _ _) alike); [easy| |]; intros; [apply conv_cc_alike|apply conv_prop_alike].
Qed.

(** ** Equivalences *)

Lemma same_inner_refl : forall i, same_inner i i.
Proof.
  assert (R : forall p, reordered p p) by (intros p; repeat split; easy).
  induction i as [ps ms cs IH] using inner_deep. constructor; cbn [i_props i_multi i_comps].
  - intros k. destruct (map_get k ps); constructor. apply R.
  - intros k. destruct (map_get k ms) as [l|]; constructor. induction l; constructor; easy.
  - clear R. induction IH as [|c cs H _ IHl]; constructor; easy.
Qed.
Lemma alike_refl : forall c, alike c c.
Proof. intros c. apply conv_alike; [easy|]. apply same_inner_refl. Qed.
Lemma reordered_trans : forall p q r, reordered p q -> reordered q r -> reordered p r.
Proof. intros p q r (A & B & C) (D & E & F). split; [congruence|]. split; [congruence|]. now transitivity (p_params q). Qed.
Lemma forall2_trans : forall A (R : A -> A -> Prop) l, Forall (fun x => forall y z, R x y -> R y z -> R x z) l ->
  forall m n, Forall2 R l m -> Forall2 R m n -> Forall2 R l n.
Proof.
  intros A R l F. induction F as [|x l H _ IH]; intros m n G K; inversion G; subst; inversion K; subst; constructor; eauto.
Qed.
Lemma same_inner_trans : forall i j k, same_inner i j -> same_inner j k -> same_inner i k.
Proof.
  induction i as [ps ms cs IH] using inner_deep. intros j k H K. inversion H as [? ? H1 H2 H3]; inversion K as [? ? K1 K2 K3]; subst. constructor.
  - intros key. specialize (H1 key). specialize (K1 key). destruct H1 as [|p q H1]; inversion K1; subst; constructor. eauto using reordered_trans.
  - intros key. specialize (H2 key). specialize (K2 key). destruct H2 as [|p q H2]; inversion K2; subst; constructor.
    eapply forall2_trans; [|exact H2|eassumption]. apply Forall_forall. eauto using reordered_trans.
  - eapply forall2_trans; [|exact H3|exact K3]. cbn [i_comps]. eapply Forall_impl; [|exact IH]. intros [n c] G [n1 c1] [n2 c2] [-> A] [-> B]. cbn [fst snd] in *. split; [easy|]. eapply G; eauto.
Qed.
Lemma same_inner_sym : forall i j, same_inner i j -> same_inner j i.
Proof.
  assert (R : forall p q, reordered p q -> reordered q p) by (intros p q (A & B & C); repeat split; easy).
  induction i as [ps ms cs IH] using inner_deep. intros j H. inversion H as [? ? H1 H2 H3]; subst. constructor.
  - intros key. specialize (H1 key). destruct H1; constructor; auto.
  - intros key. specialize (H2 key). destruct H2 as [|p q H2]; constructor. induction H2; constructor; auto.
  - cbn [i_comps] in H3. clear - IH H3. induction H3 as [|[n c] [m d] l l' [A B] _ IHl]; constructor; inversion IH; subst; cbn [fst snd] in *; auto.
Qed.
Lemma alike_trans : forall c d e, alike c d -> alike d e -> alike c e.
Proof.
  intros c d e H K. assert (pc_name c = pc_name d) by now inversion H. assert (pc_name d = pc_name e) by now inversion K.
  apply conv_alike in H, K; try easy. apply conv_alike; [congruence|]. eapply same_inner_trans; eauto.
Qed.
Lemma alike_sym : forall c d, alike c d -> alike d c.
Proof. intros c d H. assert (pc_name c = pc_name d) by now inversion H. apply conv_alike in H; try easy. apply conv_alike; [easy|]. now apply same_inner_sym. Qed.

(** ** Shuffled documents *)

Section Shuffle.
  Context {U : Unicode}.
  Lemma line_read_name : forall l, pr_name (wline_read l) = line_name l.
  Proof. now intros [k qs v|k]. Qed.
  Lemma none_filter : forall l k, Forall (fun q => pr_name q <> k) l -> filter (fun q => str_eqb (pr_name q) k) l = [].
  Proof. intros l k F. induction F as [|x l X _ IH]; [easy|]. cbn [filter]. apply str_eqb_neq in X. now rewrite X. Qed.
  Lemma alike_same : forall n ps qs cs ds, (forall k, filter (fun q => str_eqb (pr_name q) k) ps = filter (fun q => str_eqb (pr_name q) k) qs) -> Forall2 alike cs ds ->
    alike (mk_pcomp n ps cs) (mk_pcomp n qs ds).
  Proof.
    intros n ps qs cs ds F C.
    assert (L : forall k l q, last_of pr_name k l q <-> exists a, filter (fun q => str_eqb (pr_name q) k) l = a ++ [q]).
    { intros k l q. split.
      - intros (a & b & -> & K & N). rewrite filter_app. cbn [filter]. apply str_eqb_eq in K as ->.
        rewrite (none_filter b k N). eauto.
      - intros [a E]. pose proof (find_last_of _ pr_name k l) as G. destruct (find _ _) as [r|] eqn:Fi.
        + assert (exists a, filter (fun q => str_eqb (pr_name q) k) l = a ++ [r]) as [a' E'].
          { destruct G as (a' & b & -> & K & N). rewrite filter_app. cbn [filter]. apply str_eqb_eq in K as ->.
            rewrite (none_filter b k N). eauto. }
          rewrite E in E'. apply app_inj_tail in E' as [_ ->]. easy.
        + exfalso. rewrite (none_filter l k G) in E. destruct a; discriminate E. }
    constructor; [| |easy].
    - intros k _. split; [intros q Q; exists q; split; [|apply alike_refl_prop]|intros r R; exists r]; apply L; [rewrite <- F|rewrite F]; now apply L.
    - intros k _. exists (filter (fun q => str_eqb (pr_name q) k) ps), (filter (fun q => str_eqb (pr_name q) k) qs).
      split; [apply picked_filter|]. split; [apply picked_filter|]. rewrite F. clear. induction (filter _ qs); constructor; [apply alike_refl_prop|easy].
  Qed.
  Theorem shuffled_alike : forall t u, shuffled t u -> alike (wtree_read t) (wtree_read u).
  Proof.
    intros t u S. induction S as [n a x y b A|n a t u b _ IH|t|t u v _ IH1 _ IH2].
    - cbn [wtree_read]. rewrite !flat_map_app. cbn [flat_map]. apply alike_same.
      + intros k. rewrite !filter_app. f_equal. rewrite !app_assoc. f_equal. destruct x as [l|t], y as [m|u]; cbn [apart] in A; try easy; cbn [filter]; rewrite ?app_nil_r; try reflexivity.
        cbn [app]. rewrite !line_read_name. destruct (str_eqb (line_name l) k) eqn:E, (str_eqb (line_name m) k) eqn:E'; try easy.
        apply str_eqb_eq in E, E'. congruence.
      + assert (G : forall l : list pcomp, Forall2 alike l l) by (induction l; constructor; [apply alike_refl|easy]).
        destruct x as [l|t], y as [m|u]; cbn [apart] in A; try easy; apply G.
    - cbn [wtree_read]. rewrite !flat_map_app. cbn [flat_map]. apply alike_same; [easy|].
      assert (G : forall l : list pcomp, Forall2 alike l l) by (induction l; constructor; [apply alike_refl|easy]).
      apply Forall2_app; [apply G|]. constructor; [easy|apply G].
    - apply alike_refl.
    - eapply alike_trans; eauto.
  Qed.
  Theorem shuffled_props : forall t u, shuffled t u -> Permutation (pc_props (wtree_read t)) (pc_props (wtree_read u)).
  Proof.
    intros t u S. induction S as [n a x y b A|n a t u b _ IH|t|t u v _ IH1 _ IH2]; [| |easy|now transitivity (pc_props (wtree_read u))].
    - cbn [wtree_read pc_props]. rewrite !flat_map_app. cbn [flat_map]. apply Permutation_app_head. rewrite !app_assoc. apply Permutation_app_tail.
      apply Permutation_app_comm.
    - cbn [wtree_read pc_props]. rewrite !flat_map_app. easy.
  Qed.
  Theorem shuffled_ok : forall y t u, shuffled t u -> wtree_ok y t <-> wtree_ok y u.
  Proof.
    intros y t u S. induction S as [n a x z b A|n a t u b _ IH|t|t u v _ IH1 _ IH2]; [| |easy|tauto].
    - split; intros H; inversion H as [? ? N F]; subst; apply Forall_app in F as [F1 F2]; inversion F2 as [|? ? F3 F4]; subst; inversion F4; subst;
        constructor; try easy; apply Forall_app; split; auto.
    - split; intros H; inversion H as [? ? N F]; subst; apply Forall_app in F as [F1 F2]; inversion F2 as [|? ? F3 F4]; subst; inversion F3; subst;
        constructor; try easy; apply Forall_app; split; try easy; constructor; try easy; constructor; now apply IH.
  Qed.
End Shuffle.
