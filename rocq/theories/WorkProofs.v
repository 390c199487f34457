(** The work of folding a line, exactly. *)
From Coq Require Import ZifyBool ZifyNat ZifyN.
From Verif Require Import Str StrFacts Spec Fold FoldCost SpecFold SpecWork FoldProofs CutProofs.

Lemma steps_cons : forall l i js, steps l (i :: js) = nth_cost l i + steps l js.
Proof. intros l i js. unfold steps, nth_cost. cbn [map]. change (list_sum (?a :: ?x)) with (a + list_sum x). lia. Qed.
Lemma steps_app : forall l js ks, steps l (js ++ ks) = steps l js + steps l ks.
Proof. intros l js ks. unfold steps. now rewrite map_app, list_sum_app. Qed.
Lemma looks_cost : forall l p q, back_up l p = Some q -> exists js, looks l p q js /\ back_cost l p = steps l js.
Proof.
  intros l p. induction p as [p IH] using lt_wf_ind. intros q H. destruct p as [|p].
  - cbn [back_up] in H. rewrite boundary_0 in H. injection H as <-. exists []. split; [constructor; apply place_spec, boundary_0|]. cbn [back_cost]. now rewrite boundary_0.
  - cbn [back_up back_cost] in *. destruct (is_boundary l (S p)) eqn:B.
    + injection H as <-. exists []. split; [constructor; now apply place_spec|easy].
    + destruct (pos_is_ws l p) eqn:W.
      * destruct p as [|p]; [easy|]. destruct (IH p ltac:(lia) q H) as (js & L & C). exists (S p :: js). rewrite steps_cons, C. split; [|easy].
        apply lk_ws; [now apply place_not|now apply ws_index_spec|easy].
      * destruct (IH p ltac:(lia) q H) as (js & L & C). exists (p :: js). rewrite steps_cons, C. split; [|easy].
        apply lk_down; [now apply place_not|now apply ws_index_not|easy].
Qed.
Lemma fold_cost_S : forall f l rem pos np, fold_cost (S f) l rem pos np =
  if rem <=? LIMIT then 0 else nth_cost l np + back_cost l (np1 l np)
    + match back_up l (np1 l np) with
      | None => 0
      | Some q => match slice l pos q with None => 0 | Some _ => fold_cost f l (rem - (q - pos)) q (q + (LIMIT - 1)) end
      end.
Proof. reflexivity. Qed.
Lemma loop_asked : forall f l a n acc s, (exists r, l = a ++ r) -> fold_loop f l (blen l - blen a) (blen a) n acc = Ret s ->
  exists js, asked l a n js /\ fold_cost f l (blen l - blen a) (blen a) n = steps l js.
Proof.
  induction f as [|f IH]; intros l a n acc s [r E] H; [easy|]. rewrite fold_loop_S in H. rewrite fold_cost_S.
  destruct (_ <=? LIMIT) eqn:L.
  - exists []. split; [|easy]. apply (ak_last _ _ _ r); [easy|]. subst l. rewrite blen_app in L. unfold LIMIT in L. rewrite octets_blen. lia.
  - destruct (back_up l (np1 l n)) as [q|] eqn:B; [|easy]. destruct (slice l (blen a) q) as [p|] eqn:S; [|easy].
    apply slice_spec in S as (x & y & Q & Lx & Lp). rewrite E in Q. apply app_inv_blen in Q as [<- Q]; [|easy].
    subst r. assert (Lq : q = blen (a ++ p)) by (rewrite blen_app; lia).
    replace (blen l - blen a - (q - blen a)) with (blen l - blen (a ++ p)) in * by (rewrite blen_app; lia).
    change (LIMIT - 1) with 74 in *. rewrite Lq in H. destruct (looks_cost l _ _ B) as (js & J & C).
    apply IH in H as (ks & A & D); [|exists y; now rewrite <- app_assoc]. rewrite Lq, D, C.
    exists (n :: js ++ ks). rewrite steps_cons, steps_app. split; [|lia]. apply (ak_piece _ _ _ p y); [easy| | |].
    + rewrite octets_blen. subst l. rewrite blen_app in L. unfold LIMIT in L. lia.
    + rewrite octets_blen, <- Lq. unfold np1 in J. destruct (pos_is_ws l n) eqn:W; [left; split; [now apply ws_index_spec|easy]|right; split; [now apply ws_index_not|easy]].
    + now rewrite octets_blen.
Qed.
Lemma looks_one : forall l p q js, looks l p q js -> forall q' js', looks l p q' js' -> q = q' /\ js = js'.
Proof.
  intros l p q js H. induction H as [p P|p q js P W H IH|p q js P W H IH]; intros q' js' H'; inversion H'; subst; try easy; try contradiction.
  - destruct (IH q' js0 ltac:(easy)) as [-> ->]. easy.
  - destruct (IH q' js0 ltac:(easy)) as [-> ->]. easy.
Qed.
Lemma octets_inj : forall a b x y : str, octets (a ++ b) = octets (a ++ y) -> (exists c d, b ++ c = y ++ d) -> b = y /\ x = x.
Proof.
  intros a b x y L (c & d & E). rewrite !octets_blen, !blen_app in L. apply app_inv_blen in E as [-> _]; [easy|lia].
Qed.
Lemma asked_one : forall l a n js, asked l a n js -> forall js', asked l a n js' -> js = js'.
Proof.
  intros l a n js H. induction H as [a n r E L|a n p r js ks E L C H IH]; intros js' H'; inversion H' as [? ? r' E' L'|? ? p' r' js2 ks' E' L' C' H2]; subst.
  - easy.
  - apply app_inv_head in E'. subst. lia.
  - exfalso. rewrite <- app_assoc in E' || idtac. apply app_inv_head in E'. subst. lia.
  - assert (X : octets (a ++ p) = octets (a ++ p') /\ js = js2).
    { destruct C as [[W C]|[W C]]; destruct C' as [[W' C']|[W' C']]; try contradiction; destruct (looks_one _ _ _ _ C _ _ C'); easy. }
    destruct X as [X ->]. apply app_inv_head in E'. destruct (octets_inj a p [] p' X) as [-> _]; [now exists r, r'|]. f_equal. f_equal. now apply IH.
Qed.
Theorem work_exact : forall l s, fold_line l = Ret s -> exists js, asked l [] 75 js /\ fold_work l = steps l js.
Proof.
  intros l s H. unfold fold_line in H. destruct (loop_asked (blen l + 2) l [] 75 [] s) as (js & A & C).
  - now exists l.
  - cbn [blen]. now replace (blen l - 0) with (blen l) by lia.
  - exists js. split; [easy|]. unfold fold_work. cbn [blen] in C. replace (blen l - 0) with (blen l) in C by lia. exact C.
Qed.
