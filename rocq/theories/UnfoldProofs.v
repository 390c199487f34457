(** [unfold] is a single left-to-right pass. *)
From Verif Require Import Str StrFacts Fold.
From Coq Require Import ZifyBool ZifyNat ZifyN.

Lemma split_ne : forall p s k, exists h t, split_go p s k = h :: t.
Proof.
  induction s as [|c s IH]; intros k; cbn [split_go]; [now exists [], []|].
  destruct k; [|apply IH]. destruct (starts_with p (c :: s)); [eauto|].
  destruct (IH 0) as (h & t & ->). eauto.
Qed.

Lemma split_head_prefix : forall p s h t, split_go p s 0 = h :: t -> exists q, s = h ++ q.
Proof.
  induction s as [|c s IH]; cbn [split_go]; intros h t.
  - intros H. injection H as <- <-. now exists [].
  - destruct (starts_with p (c :: s)).
    + intros H. injection H as <- <-. now exists (c :: s).
    + destruct (split_ne p s 0) as (h' & t' & E). rewrite E. intros H. injection H as <- <-.
      apply IH in E as [q ->]. now exists q.
Qed.

Lemma split_keep : forall p c r, starts_with p (c :: r) = false ->
  exists h t q, split p r = h :: t /\ split p (c :: r) = (c :: h) :: t /\ r = h ++ q.
Proof.
  intros p c r H. destruct (split_ne p r 0) as (h & t & E).
  destruct (split_head_prefix _ _ _ _ E) as [q Q]. exists h, t, q.
  unfold split. cbn [split_go]. rewrite H, E. auto.
Qed.

Lemma split_match : forall p c r, starts_with p (c :: r) = true ->
  split p (c :: r) = [] :: split_go p r (length p - 1).
Proof. intros p c r H. unfold split. cbn [split_go]. now rewrite H. Qed.

Lemma starts_with_prefix_false : forall p h q, starts_with p (h ++ q) = false -> starts_with p h = false.
Proof.
  intros p h q H. destruct (starts_with p h) eqn:E; [|easy].
  apply starts_with_spec in E as [r ->]. rewrite <- app_assoc, starts_with_app in H. easy.
Qed.

Definition m1 : str := [CR; LF; SP].
Definition m2 : str := [LF; SP].
Definition m3 : str := [CR; LF; TAB].
Definition m4 : str := [LF; TAB].
Definition level2 (l : list str) : list str :=
  flat_map (split m4) (flat_map (split m3) (flat_map (split m2) l)).
Definition level3 (l : list str) : list str := flat_map (split m4) (flat_map (split m3) l).
Definition level4 (l : list str) : list str := flat_map (split m4) l.

Lemma unfold_levels : forall s, unfold s = concat (level2 (split m1 s)).
Proof. reflexivity. Qed.
Lemma level2_cons : forall h t, level2 (h :: t) = level3 (split m2 h) ++ level2 t.
Proof. intros. unfold level2, level3. cbn [flat_map]. now rewrite !flat_map_app. Qed.
Lemma level3_cons : forall h t, level3 (h :: t) = level4 (split m3 h) ++ level3 t.
Proof. intros. unfold level3, level4. cbn [flat_map]. now rewrite !flat_map_app. Qed.
Lemma level4_cons : forall h t, level4 (h :: t) = split m4 h ++ level4 t.
Proof. reflexivity. Qed.

Lemma concat_split_keep : forall p c r, starts_with p (c :: r) = false ->
  concat (split p (c :: r)) = c :: concat (split p r).
Proof.
  intros p c r H. destruct (split_keep p c r H) as (h & t & q & E1 & E2 & _).
  now rewrite E1, E2.
Qed.
Lemma level4_keep : forall c r, starts_with m4 (c :: r) = false ->
  forall t, concat (level4 ((c :: r) :: t)) = c :: concat (level4 (r :: t)).
Proof.
  intros c r H t. rewrite !level4_cons, !concat_app, concat_split_keep by easy. reflexivity.
Qed.
Lemma level3_keep : forall c r, starts_with m4 (c :: r) = false -> starts_with m3 (c :: r) = false ->
  forall t, concat (level3 ((c :: r) :: t)) = c :: concat (level3 (r :: t)).
Proof.
  intros c r H4 H3 t. destruct (split_keep m3 c r H3) as (h & u & q & E1 & E2 & ->).
  rewrite !level3_cons, !concat_app, E1, E2. rewrite level4_keep; [easy|].
  now apply starts_with_prefix_false with q.
Qed.
Lemma level2_keep : forall c r, starts_with m4 (c :: r) = false -> starts_with m3 (c :: r) = false ->
  starts_with m2 (c :: r) = false ->
  forall t, concat (level2 ((c :: r) :: t)) = c :: concat (level2 (r :: t)).
Proof.
  intros c r H4 H3 H2 t. destruct (split_keep m2 c r H2) as (h & u & q & E1 & E2 & ->).
  rewrite !level2_cons, !concat_app, E1, E2. rewrite level3_keep; [easy| |];
  now apply starts_with_prefix_false with q.
Qed.

Lemma unfold_keep : forall c r, starts_with m4 (c :: r) = false -> starts_with m3 (c :: r) = false ->
  starts_with m2 (c :: r) = false -> starts_with m1 (c :: r) = false ->
  unfold (c :: r) = c :: unfold r.
Proof.
  intros c r H4 H3 H2 H1. rewrite !unfold_levels.
  destruct (split_keep m1 c r H1) as (h & t & q & E1 & E2 & ->). rewrite E1, E2.
  apply level2_keep; now apply starts_with_prefix_false with q.
Qed.

(* one marker at each level *)
Lemma level4_drop : forall r t, concat (level4 ((m4 ++ r) :: t)) = concat (level4 (r :: t)).
Proof.
  intros. rewrite !level4_cons, !concat_app. change (m4 ++ r) with (LF :: TAB :: r).
  rewrite split_match by reflexivity. reflexivity.
Qed.
Lemma level3_lift4 : forall r t,
  concat (level3 ((m4 ++ r) :: t)) = concat (level3 (r :: t)).
Proof.
  intros. rewrite !level3_cons, !concat_app. unfold m4. cbn [app].
  destruct (split_keep m3 LF (TAB :: r) eq_refl) as (h & u & q & E1 & E2 & Q).
  destruct (split_keep m3 TAB r eq_refl) as (h' & u' & q' & E1' & E2' & Q').
  rewrite E2' in E1. injection E1 as <- <-. rewrite E2, E1'.
  change (LF :: TAB :: h') with (m4 ++ h'). now rewrite level4_drop.
Qed.
Lemma level2_lift4 : forall r t,
  concat (level2 ((m4 ++ r) :: t)) = concat (level2 (r :: t)).
Proof.
  intros. rewrite !level2_cons, !concat_app. unfold m4. cbn [app].
  destruct (split_keep m2 LF (TAB :: r) eq_refl) as (h & u & q & E1 & E2 & Q).
  destruct (split_keep m2 TAB r eq_refl) as (h' & u' & q' & E1' & E2' & Q').
  rewrite E2' in E1. injection E1 as <- <-. rewrite E2, E1'.
  change (LF :: TAB :: h') with (m4 ++ h'). now rewrite level3_lift4.
Qed.
Lemma unfold_lf_tab : forall r, unfold (LF :: TAB :: r) = unfold r.
Proof.
  intros. rewrite !unfold_levels.
  destruct (split_keep m1 LF (TAB :: r) eq_refl) as (h & u & q & E1 & E2 & Q).
  destruct (split_keep m1 TAB r eq_refl) as (h' & u' & q' & E1' & E2' & Q').
  rewrite E2' in E1. injection E1 as <- <-. rewrite E2, E1'.
  change (LF :: TAB :: h') with (m4 ++ h'). now rewrite level2_lift4.
Qed.

Lemma level3_drop : forall r t, concat (level3 ((m3 ++ r) :: t)) = concat (level3 (r :: t)).
Proof.
  intros. rewrite !level3_cons, !concat_app. change (m3 ++ r) with (CR :: LF :: TAB :: r).
  rewrite split_match by reflexivity. reflexivity.
Qed.
Lemma level2_lift3 : forall r t, concat (level2 ((m3 ++ r) :: t)) = concat (level2 (r :: t)).
Proof.
  intros. rewrite !level2_cons, !concat_app. unfold m3. cbn [app].
  destruct (split_keep m2 CR (LF :: TAB :: r) eq_refl) as (h0 & u0 & q0 & E0 & F0 & _).
  destruct (split_keep m2 LF (TAB :: r) eq_refl) as (h & u & q & E1 & E2 & Q).
  destruct (split_keep m2 TAB r eq_refl) as (h' & u' & q' & E1' & E2' & Q').
  rewrite E2' in E1. injection E1 as <- <-. rewrite E2 in E0. injection E0 as <- <-.
  rewrite F0, E1'. change (CR :: LF :: TAB :: h') with (m3 ++ h'). now rewrite level3_drop.
Qed.
Lemma unfold_crlf_tab : forall r, unfold (CR :: LF :: TAB :: r) = unfold r.
Proof.
  intros. rewrite !unfold_levels.
  destruct (split_keep m1 CR (LF :: TAB :: r) eq_refl) as (h0 & u0 & q0 & E0 & F0 & _).
  destruct (split_keep m1 LF (TAB :: r) eq_refl) as (h & u & q & E1 & E2 & Q).
  destruct (split_keep m1 TAB r eq_refl) as (h' & u' & q' & E1' & E2' & Q').
  rewrite E2' in E1. injection E1 as <- <-. rewrite E2 in E0. injection E0 as <- <-.
  rewrite F0, E1'. change (CR :: LF :: TAB :: h') with (m3 ++ h'). now rewrite level2_lift3.
Qed.

Lemma level2_drop : forall r t, concat (level2 ((m2 ++ r) :: t)) = concat (level2 (r :: t)).
Proof.
  intros. rewrite !level2_cons, !concat_app. change (m2 ++ r) with (LF :: SP :: r).
  rewrite split_match by reflexivity. reflexivity.
Qed.
Lemma unfold_lf_sp : forall r, unfold (LF :: SP :: r) = unfold r.
Proof.
  intros. rewrite !unfold_levels.
  destruct (split_keep m1 LF (SP :: r) eq_refl) as (h & u & q & E1 & E2 & Q).
  destruct (split_keep m1 SP r eq_refl) as (h' & u' & q' & E1' & E2' & Q').
  rewrite E2' in E1. injection E1 as <- <-. rewrite E2, E1'.
  change (LF :: SP :: h') with (m2 ++ h'). now rewrite level2_drop.
Qed.
Lemma unfold_crlf_sp : forall r, unfold (CR :: LF :: SP :: r) = unfold r.
Proof.
  intros. rewrite !unfold_levels. rewrite (split_match m1) by reflexivity. reflexivity.
Qed.

Lemma unfold_nil : unfold [] = [].
Proof. reflexivity. Qed.

Lemma fold_mark_dec : forall s, fold_mark s \/
  (starts_with m4 s = false /\ starts_with m3 s = false
   /\ starts_with m2 s = false /\ starts_with m1 s = false).
Proof.
  intros s.
  destruct (starts_with m4 s) eqn:E4.
  { apply starts_with_spec in E4 as [r ->]. left. exists TAB, r. split; [now right|now right]. }
  destruct (starts_with m3 s) eqn:E3.
  { apply starts_with_spec in E3 as [r ->]. left. exists TAB, r. split; [now right|now left]. }
  destruct (starts_with m2 s) eqn:E2.
  { apply starts_with_spec in E2 as [r ->]. left. exists SP, r. split; [now left|now right]. }
  destruct (starts_with m1 s) eqn:E1.
  { apply starts_with_spec in E1 as [r ->]. left. exists SP, r. split; [now left|now left]. }
  auto.
Qed.

Lemma unfold_keep' : forall c r, ~ fold_mark (c :: r) -> unfold (c :: r) = c :: unfold r.
Proof.
  intros c r H. destruct (fold_mark_dec (c :: r)) as [F|(H4 & H3 & H2 & H1)]; [easy|].
  now apply unfold_keep.
Qed.

Theorem unfold_unfolds : forall s, unfolds s (unfold s).
Proof.
  intros s. induction s as [s IH] using (well_founded_induction (well_founded_ltof _ (@length N))).
  unfold ltof in IH. destruct s as [|c r]; [rewrite unfold_nil; constructor|].
  destruct (fold_mark_dec (c :: r)) as [(d & q & B & [E|E])|F].
  - injection E as -> ->.
    replace (unfold (CR :: LF :: d :: q)) with (unfold q)
      by (destruct B as [-> | ->]; [now rewrite unfold_crlf_sp|now rewrite unfold_crlf_tab]).
    constructor; [easy|]. apply IH. cbn. lia.
  - injection E as -> ->.
    replace (unfold (LF :: d :: q)) with (unfold q)
      by (destruct B as [-> | ->]; [now rewrite unfold_lf_sp|now rewrite unfold_lf_tab]).
    constructor; [easy|]. apply IH. cbn. lia.
  - destruct F as (H4 & H3 & H2 & H1). rewrite unfold_keep by easy. constructor; [|apply IH; cbn; lia].
    intros (d & q & B & [E|E]); injection E as -> ->; destruct B as [-> | ->]; easy.
Qed.

Theorem unfolds_fun : forall s t u, unfolds s t -> unfolds s u -> t = u.
Proof.
  intros s t u H. revert u. induction H as [|c r t B H IH|c r t B H IH|c r t F H IH]; intros u G.
  - now inversion G.
  - inversion G as [|d q v B' G'|d q v B' G'|d q v F' G']; subst; [auto|].
    exfalso. apply F'. exists c, r. auto.
  - inversion G as [|d q v B' G'|d q v B' G'|d q v F' G']; subst; [auto|].
    exfalso. apply F'. exists c, r. auto.
  - inversion G as [|d q v B' G'|d q v B' G'|d q v F' G']; subst.
    + exfalso. apply F. exists d, q. auto.
    + exfalso. apply F. exists d, q. auto.
    + f_equal. auto.
Qed.

Lemma unfold_eq : forall s t, unfolds s t -> unfold s = t.
Proof. intros s t H. eapply unfolds_fun; [apply unfold_unfolds|easy]. Qed.

Lemma mark_free_cons : forall c s, mark_free (c :: s) -> mark_free s.
Proof. intros c s H a b ->. now apply (H (c :: a) b). Qed.

Lemma mark_free_app_l : forall a b, mark_free (a ++ b) -> mark_free a.
Proof.
  intros a b H x y -> (c & r & B & [-> | ->]); eapply (H x); try (rewrite <- app_assoc; reflexivity);
    exists c, (r ++ b); cbn; auto.
Qed.
Lemma mark_free_app_r : forall a b, mark_free (a ++ b) -> mark_free b.
Proof. intros a b H x y ->. apply (H (a ++ x) y). now rewrite app_assoc. Qed.

Lemma unfold_mark_free : forall s, mark_free s -> unfold s = s.
Proof.
  induction s as [|c s IH]; intros H; [easy|].
  rewrite unfold_keep' by now apply (H []). f_equal. apply IH. now apply mark_free_cons in H.
Qed.

(** A mark-free text followed by something that does not complete a mark. *)
Lemma unfold_app_sep : forall a b, mark_free a ->
  (forall c r, b = c :: r -> ~ blank c /\ (c = LF -> forall a', a <> a' ++ [CR]) \/ c = CR) ->
  unfold (a ++ b) = a ++ unfold b.
Proof.
  induction a as [|c a IH]; intros b H Hb; [easy|].
  cbn [app]. rewrite unfold_keep'.
  - f_equal. apply IH; [now apply mark_free_cons in H|].
    intros d r E. destruct (Hb d r E) as [[G1 G2]|G]; [|tauto]. left. split; [easy|].
    intros F a' ->. now apply (G2 F (c :: a')).
  - intros (d & r & B & [E|E]).
    + destruct a as [|a1 a]; [|destruct a as [|a2 a]]; cbn in E.
      * injection E as -> E. destruct (Hb LF (d :: r) E) as [[G1 G2]|G]; [|easy].
        now apply (G2 eq_refl []).
      * injection E as -> -> E. destruct (Hb d r E) as [[G1 G2]|G]; [easy|].
        subst d. now destruct B.
      * injection E as -> -> -> E. apply (H [] _ eq_refl). exists d, a. auto.
    + destruct a as [|a1 a]; cbn in E.
      * injection E as -> E. destruct (Hb d r E) as [[G1 G2]|G]; [easy|].
        subst d. now destruct B.
      * injection E as -> -> E. apply (H [] _ eq_refl). exists d, a. auto.
Qed.

Lemma unfold_app_cr : forall a b, mark_free a -> unfold (a ++ CR :: b) = a ++ unfold (CR :: b).
Proof. intros. apply unfold_app_sep; [easy|]. intros c r E. injection E as <- <-. auto. Qed.

(** A text without line feed has no fold mark. *)
Lemma mark_free_no_lf : forall s, ~ In LF s -> mark_free s.
Proof.
  intros s H a b -> (c & r & B & [-> | ->]); apply H, in_or_app; right; cbn; auto.
Qed.
