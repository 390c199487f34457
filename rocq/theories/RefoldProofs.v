(** Folding at other places does not change what is unfolded. *)
From Verif Require Import Str StrFacts Spec Fold UnfoldProofs FoldProofs Parser SpecRefold.
From Coq Require Import ZifyBool ZifyNat ZifyN.

Lemma mark_unfold : forall m b, mark m -> unfold (m ++ b) = unfold b.
Proof.
  intros m b (c & [-> | ->] & [-> | ->]); cbn [app].
  - apply unfold_crlf_sp.
  - apply unfold_lf_sp.
  - apply unfold_crlf_tab.
  - apply unfold_lf_tab.
Qed.
Lemma mark_length : forall m, mark m -> 2 <= length m <= 3.
Proof. intros m (c & _ & [-> | ->]); cbn; lia. Qed.
Lemma fold_mark_mark : forall s, fold_mark s <-> exists m r, mark m /\ s = m ++ r.
Proof.
  intros s. split.
  - intros (c & r & B & [-> | ->]); [exists [CR; LF; c], r|exists [LF; c], r]; (split; [exists c; auto|easy]).
  - intros (m & r & (c & B & [-> | ->]) & ->); exists c, r; auto.
Qed.
Lemma unfold_kept : forall c r, ~ fold_mark (c :: r) -> unfold (c :: r) = c :: unfold r.
Proof. intros c r H. apply unfolds_iff. constructor; [easy|]. now apply unfolds_iff. Qed.

(** Without a fold across them, two texts are unfolded separately. *)
Lemma across_cons : forall c a b, ~ across (c :: a) b -> ~ across a b.
Proof. intros c a b H (a' & x & y & b' & -> & R). apply H. exists (c :: a'), x, y, b'. split; [easy|exact R]. Qed.
Lemma across_app : forall p a b, ~ across (p ++ a) b -> ~ across a b.
Proof. induction p as [|c p IH]; intros a b H; [easy|]. apply IH. now apply across_cons in H. Qed.
Lemma app_cases : forall {A} (a b m r : list A), a ++ b = m ++ r ->
  (exists x, a = m ++ x /\ r = x ++ b) \/ (exists y, m = a ++ y /\ b = y ++ r /\ y <> []).
Proof.
  induction a as [|c a IH]; intros b m r E.
  - destruct m as [|d m]; [left; now exists []|right; exists (d :: m)]. repeat split; [easy|discriminate].
  - destruct m as [|d m]; [left; now exists (c :: a)|]. cbn [app] in E. injection E as <- E.
    destruct (IH _ _ _ E) as [(x & -> & ->)|(y & -> & -> & N)]; [left; now exists x|right; now exists y].
Qed.
Lemma unfold_app : forall a b, ~ across a b -> unfold (a ++ b) = unfold a ++ unfold b.
Proof.
  intros a. remember (length a) as n eqn:E. revert a E. induction n as [n IH] using (well_founded_induction lt_wf).
  intros [|c a] -> b H; [easy|].
  destruct (starts_with m1 (c :: a) || starts_with m2 (c :: a) || starts_with m3 (c :: a) || starts_with m4 (c :: a)) eqn:S.
  - assert (M : exists m r, mark m /\ c :: a = m ++ r).
    { apply orb_prop in S as [S|S]; [apply orb_prop in S as [S|S]; [apply orb_prop in S as [S|S]|]|];
        apply starts_with_spec in S as (r & ->); eexists; exists r; (split; [|reflexivity]).
      - exists SP. split; [now left|now left].
      - exists SP. split; [now left|now right].
      - exists TAB. split; [now right|now left].
      - exists TAB. split; [now right|now right]. }
    destruct M as (m & r & M & Q). rewrite Q in *. rewrite <- app_assoc, (mark_unfold m (r ++ b) M), (mark_unfold m r M). apply (IH (length r)).
    + destruct M as (x & _ & [-> | ->]); rewrite app_length; cbn [length]; lia.
    + easy.
    + now apply across_app in H.
  - assert (K : forall s, ~ fold_mark (c :: a ++ s) -> unfold ((c :: a) ++ s) = c :: unfold (a ++ s)) by (intros s N; now apply unfold_kept).
    assert (N1 : ~ fold_mark (c :: a)).
    { intros M. apply fold_mark_mark in M as (m & r & (x & B & [-> | ->]) & Q); rewrite Q in S; destruct B as [-> | ->];
        cbn in S; discriminate S. }
    rewrite K.
    + rewrite (IH (length a)), unfold_kept; [easy|easy|cbn; lia|easy|now apply across_cons in H].
    + intros M. apply fold_mark_mark in M as (m & r & M & Q). change (c :: a ++ b) with ((c :: a) ++ b) in Q.
      destruct (app_cases _ _ _ _ Q) as [(x & Q1 & _)|(y & Q1 & -> & Ny)].
      * apply N1, fold_mark_mark. eauto.
      * apply H. exists [], (c :: a), y, r. rewrite <- Q1. repeat split; auto. discriminate.
Qed.
Lemma across_mark : forall a m b, mark m -> ~ across a m -> ~ across a (m ++ b).
Proof.
  intros a m b M N (a' & x & y & b' & -> & E & X & Y & Q). destruct (app_cases _ _ _ _ E) as [(z & -> & ->)|(z & -> & _ & Z)].
  - apply N. exists a', x, y, z. auto.
  - apply mark_length in M. apply mark_length in Q. rewrite !app_length in Q.
    destruct x; [easy|]. destruct z; [easy|]. cbn [length] in Q. lia.
Qed.
Lemma unfold_insert : forall a m b, mark m -> ~ across a b -> ~ across a m -> unfold (a ++ m ++ b) = unfold (a ++ b).
Proof.
  intros a m b M N1 N2. rewrite (unfold_app a b N1), unfold_app, mark_unfold; [easy|easy|]. now apply across_mark.
Qed.

(** ** The other way *)
Definition sealed (p : str) : Prop := p = [] \/ exists q c, p = q ++ [c] /\ blank c.
Lemma sealed_across : forall p b, sealed p -> ~ across p b.
Proof.
  intros p b [-> | (q & c & -> & B)] (a & x & y & b' & E & _ & X & Y & (d & _ & M)).
  - now destruct a, x.
  - destruct (exists_last X) as (x' & e & ->). rewrite app_assoc in E. apply app_inj_tail in E as [_ <-].
    destruct y as [|y1 y]; [easy|]. destruct M as [M|M]; destruct x' as [|x1 [|x2 [|x3 x']]]; cbn [app] in M; try discriminate M;
      try (apply (f_equal (@length N)) in M; cbn [length] in M; rewrite ?app_length in M; cbn [length] in M; lia);
      injection M; intros; subst; destruct B as [B|B]; discriminate B.
Qed.
Lemma sealed_mark : forall p m, mark m -> sealed (p ++ m).
Proof. intros p m (c & B & [-> | ->]); right; [exists (p ++ [CR; LF]), c|exists (p ++ [LF]), c]; now rewrite <- app_assoc. Qed.
Lemma sealed_keep : forall p c r, sealed p -> ~ fold_mark (c :: r) -> ~ across (p ++ [c]) r.
Proof.
  intros p c r S N (a & x & y & b' & E & -> & X & Y & M). destruct (exists_last X) as (x' & e & ->).
  rewrite app_assoc in E. apply app_inj_tail in E as [-> <-]. destruct x' as [|d x'].
  - apply N, fold_mark_mark. exists ([c] ++ y), b'. auto.
  - apply (sealed_across (a ++ d :: x') ([c] ++ y) S). exists a, (d :: x'), ([c] ++ y), [].
    rewrite app_nil_r, <- app_assoc in *. repeat split; easy.
Qed.
Definition some_mark : str := [CR; LF; SP].
Lemma some_mark_ok : mark some_mark.
Proof. exists SP. split; [now left|now left]. Qed.
Lemma across_some : forall a, ~ across a some_mark.
Proof.
  intros a (a' & x & y & b' & _ & E & X & Y & (c & B & M)). destruct y as [|y1 y]; [easy|]. injection E as <- _.
  destruct M as [M|M]; destruct x as [|x1 [|x2 [|x3 x]]]; cbn [app] in M; try discriminate M; try (now destruct X);
    try (apply (f_equal (@length N)) in M; cbn [length] in M; rewrite ?app_length in M; cbn [length] in M; lia);
    injection M; intros; subst; destruct B as [B|B]; discriminate B.
Qed.
(** The text with a fold after each character. *)
Definition all_folded (t : str) : str := concat (map (fun c => c :: some_mark) t).
Lemma refolded_all : forall s t, unfolds s t -> forall p, sealed p -> refolded (p ++ s) (p ++ all_folded t).
Proof.
  assert (R : forall m p r t, mark m -> sealed p -> refolded ((p ++ m) ++ r) ((p ++ m) ++ all_folded t) ->
    refolded (p ++ m ++ r) (p ++ all_folded t)).
  { intros m p r t M S H. eapply rf_trans; [rewrite app_assoc; exact H|]. rewrite <- app_assoc. apply rf_sym, rf_fold; try easy; now apply sealed_across. }
  induction 1 as [|c r t B H IH|c r t B H IH|c r t N H IH]; intros p S.
  - apply rf_refl.
  - apply (R [CR; LF; c]); [exists c; auto|easy|]. apply IH, sealed_mark. exists c. auto.
  - apply (R [LF; c]); [exists c; auto|easy|]. apply IH, sealed_mark. exists c. auto.
  - eapply rf_trans.
    + change (c :: r) with ([c] ++ r). rewrite app_assoc. apply (rf_fold _ some_mark); [apply some_mark_ok|now apply sealed_keep|apply across_some].
    + rewrite app_assoc. unfold all_folded. cbn [map concat]. change (c :: some_mark) with ([c] ++ some_mark).
      rewrite <- (app_assoc [c]), (app_assoc p [c]), (app_assoc (p ++ [c])). apply IH. apply sealed_mark, some_mark_ok.
Qed.
Lemma refolded_unfold : forall s t, refolded s t <-> unfold s = unfold t.
Proof.
  intros s t. split.
  - induction 1 as [a m b M N1 N2|s|s t H IH|s t u H IH H' IH']; [now rewrite unfold_insert|easy|easy|congruence].
  - intros E. assert (A : forall x, refolded x (all_folded (unfold x))).
    { intros x. apply (refolded_all x (unfold x) ltac:(now apply unfolds_iff) []). now left. }
    apply (rf_trans _ _ _ (A s)). rewrite E. apply rf_sym, A.
Qed.

(** A fold inside of a fold leaves something of it. *)
Lemma mark_parts : forall x y, mark (x ++ y) -> x <> [] -> y <> [] ->
  exists c, blank c /\ ((x = [CR] /\ y = [LF; c]) \/ (x = [CR; LF] /\ y = [c]) \/ (x = [LF] /\ y = [c])).
Proof.
  intros x y (c & B & M) X Y. exists c. split; [easy|]. destruct x as [|x1 x]; [easy|]. cbn [app] in M.
  destruct M as [M|M]; injection M as -> M.
  - destruct x as [|x2 x]; cbn [app] in M; [left; now rewrite M|]. injection M as -> M. right; left.
    destruct x as [|x3 x]; cbn [app] in M; [now rewrite M|]. injection M as _ M. apply app_eq_nil in M as (_ & ->). easy.
  - right; right. destruct x as [|x3 x]; cbn [app] in M; [now rewrite M|]. injection M as _ M. apply app_eq_nil in M as (_ & ->). easy.
Qed.
Lemma unfold_blank : forall c b, blank c -> unfold (c :: b) = c :: unfold b.
Proof. intros c b B. apply unfold_kept. intros (d & r & _ & [E|E]); injection E as -> _; destruct B as [B|B]; discriminate B. Qed.
Lemma across_cr : forall a b, ~ across a (CR :: b).
Proof.
  intros a b (a' & x & y & b' & _ & E & X & Y & M). destruct (mark_parts _ _ M X Y) as (c & B & [(_ & ->)|[(_ & ->)|(_ & ->)]]);
    cbn [app] in E; injection E as E _; try discriminate E; subst c; destruct B as [B|B]; discriminate B.
Qed.
Lemma across_lf : forall a b, across a (LF :: b) -> exists a', a = a' ++ [CR].
Proof.
  intros a b (a' & x & y & b' & -> & E & X & Y & M). destruct (mark_parts _ _ M X Y) as (c & B & [(-> & ->)|[(_ & ->)|(_ & ->)]]);
    cbn [app] in E; [now exists a'| |]; injection E as E _; subst c; destruct B as [B|B]; discriminate B.
Qed.
Lemma classic_cr : forall a : str, (exists a', a = a' ++ [CR]) \/ (forall a', a <> a' ++ [CR]).
Proof.
  intros a. induction a as [|c r _] using rev_ind; [right; intros a' F; destruct a'; discriminate F|].
  destruct (N.eq_dec c CR) as [->|C]; [left; now exists r|right; intros a' F]. apply app_inj_tail in F as (_ & F). easy.
Qed.
Lemma across_parts : forall a b, across a b -> exists a' x y b', a = a' ++ x /\ b = y ++ b' /\ x <> [] /\ mark (x ++ y)
    /\ unfold x = x /\ ~ across a' (x ++ y ++ b') /\ length (unfold b') <= length (unfold (y ++ b')).
Proof.
  intros a b (a' & x & y & b' & -> & -> & X & Y & M). destruct (mark_parts _ _ M X Y) as (c & B & C).
  assert (K : length (unfold b') <= length (unfold (c :: b'))) by (rewrite unfold_blank by easy; cbn; lia).
  assert (M3 : mark [CR; LF; c]) by (exists c; auto). assert (M2 : mark [LF; c]) by (exists c; auto).
  destruct C as [(-> & ->)|[(-> & ->)|(-> & ->)]].
  - exists a', [CR], [LF; c], b'. do 5 (split; [easy|]). split; [apply across_cr|].
    now rewrite (mark_unfold [LF; c] b' M2).
  - exists a', [CR; LF], [c], b'. do 5 (split; [easy|]). split; [apply across_cr|easy].
  - destruct (classic_cr a') as [(z & ->)|Z].
    + exists z, [CR; LF], [c], b'. rewrite <- !app_assoc. do 5 (split; [easy|]). split; [apply across_cr|easy].
    + exists a', [LF], [c], b'. do 5 (split; [easy|]). split; [|easy]. intros A. now destruct (across_lf _ _ A) as (z & ->); apply (Z z).
Qed.
Lemma insert_exact : forall a m b, mark m -> ~ across a m -> (unfold (a ++ m ++ b) = unfold (a ++ b) <-> ~ across a b).
Proof.
  intros a m b M N. split; [|intros; now apply unfold_insert]. intros E C.
  destruct (across_parts _ _ C) as (a' & x & y & b' & -> & -> & X & Q & S & A & L).
  rewrite (unfold_app (a' ++ x) (m ++ y ++ b')) in E by now apply across_mark. rewrite (mark_unfold _ _ M) in E.
  rewrite (unfold_app a' x) in E.
  2:{ intros (a1 & x1 & y1 & b1 & -> & -> & R). apply A. exists a1, x1, y1, (b1 ++ y ++ b'). rewrite <- !app_assoc. tauto. }
  rewrite S, <- (app_assoc a'), (unfold_app _ _ A), (app_assoc x y b'), (mark_unfold _ _ Q) in E.
  apply (f_equal (@length BinNums.N)) in E. rewrite !app_length in E. destruct x; [easy|]. cbn [length] in E. lia.
Qed.
