(** C76: writing without overflow checks. *)
From Coq Require Import ZifyBool ZifyNat ZifyN.
From Verif Require Import Str StrFacts Spec Fold FoldRelease ValueTypes Property SpecBuild SpecText SpecFold SpecRelease
  FoldProofs WrittenProofs CutProofs FoldReleaseProofs Properties_Lines.

Lemma fits_blen : forall l, fits l -> (N.of_nat (blen l) < 2 ^ 64)%N.
Proof. intros l. unfold fits. now rewrite octets_blen. Qed.

Lemma no_underflow : forall l, ~ first_wide l -> forall p, back_up l p <> None.
Proof. intros l W p B. apply W. apply back_up_underflow in B as (c & r & B). exists c, r. exact B. Qed.
Lemma wloop_ends : forall l rem pos np acc o k, wloop l rem pos np acc o k -> o <> NoFuel.
Proof. intros l rem pos np acc o k H. induction H; [now destruct (slice _ _ _)|easy|easy]. Qed.

(** C76. A line that does not start with such white space is folded the same with and without overflow checks:
    the same text, a panic in both, or no end in both. *)
Theorem C76_same : forall l, fits l -> ~ first_wide l ->
  forall o, (exists k, wfold_line l o k) <-> fold_line l = o /\ o <> NoFuel.
Proof.
  intros l F W o. split.
  - intros [k H]. pose proof (wloop_ends _ _ _ _ _ _ _ H) as N.
    split; [|easy]. destruct (wloop_loop _ _ _ _ _ _ _ H (fits_blen l F)) as [[f G]|(_ & [f G] & G')].
    + split; [lia|apply boundary_0].
    + eapply fold_line_at; eauto.
    + exfalso. destruct (loop_wloop f l _ _ _ _ Panic (no_underflow l W) G) as [k' K]; [easy|].
      unfold wfold_line in H. destruct (wloop_fun _ _ _ _ _ _ _ H _ _ K) as [-> ->].
      destruct (G' [] l eq_refl eq_refl) as (ps & E & _). easy.
  - intros [H N]. destruct (loop_wloop (blen l + 2) l (blen l) 0 LIMIT [] o (no_underflow l W) H N) as [k K]. now exists k.
Qed.
Print Assumptions C76_same.
(** So it is for the lines of properties, unless the name starts with such white space. *)
Theorem C76_property : forall {U : Unicode} p l, line_written p l -> fits l -> ~ first_wide (p_key p) ->
  forall s, (exists k, wfold_line l (Ret s) k) <-> prop_write p = Ret (s ++ [CR; LF]).
Proof.
  intros U p l H F W s. rewrite C76_same; [|easy|].
  - rewrite C69_exact. split.
    + intros [E _]. exists l. split; [easy|]. apply fold_exact in E as (ps & last & C & ->). now exists ps, last.
    + intros (l' & H' & ps & last & C & E). apply app_inv_tail in E. subst s. split; [|easy].
      rewrite (line_written_unique _ _ _ H H'). apply fold_exact. eauto.
  - intros (c & r & E & Wc). destruct H as (ts & w & E' & Hp & _). rewrite E in E'. destruct (p_key p) as [|k ks].
    + cbn [app] in E'. destruct ts as [|t ts]; cbn [concat app] in E'.
      * injection E' as -> ->. destruct Wc as [Wc _]. discriminate.
      * inversion Hp as [|? ? ? ? Ht]; subst. inversion Ht; subst; cbn [app] in E'; injection E' as -> _; destruct Wc as [Wc _]; discriminate.
    + cbn [app] in E'. injection E' as <- _. apply W. now exists c, ks.
Qed.
Print Assumptions C76_property.
(** What is folded with the checks is folded the same without. *)
Theorem C76_kept : forall l s, fold_line l = Ret s -> exists k, wfold_line l (Ret s) k.
Proof. intros l s H. eapply loop_wloop_ret. exact H. Qed.
Print Assumptions C76_kept.
(** What is folded without the checks only takes about [2^64] turns, is not cut any more after that, ends with an empty
    line and is unfolded to the line. *)
Theorem C76_unchecked : forall l o k, fits l -> wfold_line l o k ->
  fold_line l = o
  \/ fold_line l = Panic /\ (2 ^ 64 - 1 - N.of_nat (octets l) <= k)%N
     /\ exists ps, o = Ret (join_fold ps []) /\ concat ps = l /\ (mark_free l -> unfold (join_fold ps []) = l).
Proof.
  intros l o k F H. destruct (wloop_loop _ _ _ _ _ _ _ H (fits_blen l F)) as [[f G]|(K & [f G] & G')].
  - split; [lia|apply boundary_0].
  - left. eapply fold_line_at; [exact G|]. eapply wloop_ends. exact H.
  - right. split; [eapply fold_line_at; eauto; easy|]. rewrite octets_blen. split; [exact K|].
    destruct (G' [] l eq_refl eq_refl) as (ps & -> & E). exists ps. split; [easy|]. split; [easy|].
    intros M. rewrite unfold_join; rewrite app_nil_r; rewrite E; easy.
Qed.
Print Assumptions C76_unchecked.
Theorem C76_one : forall l o k o' k', wfold_line l o k -> wfold_line l o' k' -> o = o' /\ k = k'.
Proof. intros l o k o' k' H H'. eapply wloop_fun; eauto. Qed.
Print Assumptions C76_one.

(** It is not so for all lines: the checked loop panics, the other one counts down. *)
Definition counts_down : str := concat (repeat [12288; 19968; 19968]%N 26).
Theorem C76_counts_down : exists l k, fits l /\ fold_line l = Panic
  /\ wfold_line l (Ret (l ++ [CR; LF; SP])) k /\ (2 ^ 64 - 1 - N.of_nat (octets l) <= k)%N.
Proof.
  assert (B : back_up counts_down 74 = None) by (vm_compute; reflexivity).
  destruct (wback_none _ _ B) as (k & K & L); [vm_compute; reflexivity|].
  exists counts_down, (k + 0)%N. split; [vm_compute; reflexivity|]. split; [vm_compute; reflexivity|]. split.
  - eapply wl_step; [vm_compute; lia|exact K| |].
    + rewrite Nat2N.id. instantiate (1 := counts_down). vm_compute. reflexivity.
    + rewrite Nat2N.id. cbn [app]. replace (counts_down ++ [CR; LF; SP]) with ((counts_down ++ [CR; LF; SP]) ++ []) by apply app_nil_r.
      change (Ret ((counts_down ++ [CR; LF; SP]) ++ [])) with
        (match Some (@nil N) with Some s => Ret ((counts_down ++ [CR; LF; SP]) ++ s) | None => Panic end).
      replace (Some (@nil N)) with (slice counts_down (blen counts_down - (blen counts_down - (blen counts_down - 0))) (blen counts_down)) by (vm_compute; reflexivity).
      rewrite app_nil_r at 1. apply wl_end. vm_compute. lia.
  - rewrite octets_blen. lia.
Qed.
Print Assumptions C76_counts_down.

(** A line of two pieces, folded without counting down. *)
Example C76_example : let l := lit "SUMMARY:" ++ repeat 233%N 60 in
  fits l /\ ~ first_wide l /\ exists k, wfold_line l (Ret (lit "SUMMARY:" ++ repeat 233%N 33 ++ [CR; LF; SP] ++ repeat 233%N 27)) k.
Proof.
  cbv zeta. assert (F : fits (lit "SUMMARY:" ++ repeat 233%N 60)) by (vm_compute; reflexivity).
  assert (W : ~ first_wide (lit "SUMMARY:" ++ repeat 233%N 60)).
  { intros (c & r & E & Wc & _). vm_compute in E. injection E as <- _. discriminate. }
  split; [exact F|]. split; [exact W|]. apply C76_same; [exact F|exact W|]. split; [vm_compute; reflexivity|easy].
Qed.
