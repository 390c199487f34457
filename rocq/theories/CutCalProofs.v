(** Written calendars that were cut off. *)
From Verif Require Import Str StrFacts Fold Spec ValueTypes Property Chrono DateTime Component Calendar Nom Parser SpecBuild SpecTree SpecDoc SpecItems
  SpecGrammar SpecRound SpecExact SpecRefold SpecCut ParserProofs ReadProofs DocProofs GrammarProofs TruncProofs RefoldProofs TreeProofs RoundProofs ExactProofs LfProofs.
From Coq Require Import ZifyBool ZifyNat ZifyN.

Section Cut.
  Context {U : Unicode}.

  (** ** Documents *)

  Lemma not_read : forall i, (forall c r, ~ text_reads i c r) ->
    (read_calendar i = Ok (mk_pcal [] []) \/ exists e, read_calendar i = Err e) /\ (exists e, read_component i = Err e).
  Proof.
    intros i N. destruct (text_one i) as (_ & [(c & T)|[T|T]] & _); [now apply N in T| |].
    - split; [left; apply read_calendar_exact; right; now right|]. apply read_component_fails. right. destruct T as (j & A & D). exists j. split; [easy|].
      destruct D as [D|[D|(c & r & _ & C)]]; auto. exfalso. apply (N c r). now exists j.
    - split; [right; now apply read_calendar_exact|]. apply read_component_fails. now left.
  Qed.
  Lemma cut_reads : forall t u z e, wtree_ok CrLf t -> single t -> strict_text t = u ++ z -> 2 < length z -> short e ->
    forall c r, ~ text_reads (u ++ e) c r.
  Proof.
    intros t u z e O G E L S c r (j & A & C). destruct (all_cut t O G u z e j E L S A) as [N _]. now apply N in C.
  Qed.
  Lemma whole_reads : forall t x j, wtree_ok CrLf t -> (exists b, b = [CR; LF] /\ strict_text t = x ++ b) -> forall e, after_breaks e j -> text_reads (x ++ e) (wtree_read t) j.
  Proof.
    intros [n its] x j O (b & -> & E) e A. rewrite render_eq, !app_assoc in E. apply app_inv_tail in E as <-.
    eexists. split; [|apply (tree_on _ O n its eq_refl e j A)]. rewrite <- !app_assoc. apply self_after. apply no_break_head; discriminate.
  Qed.
  Lemma read_same : forall i i' c, text_reads i c [] -> text_reads i' c [] -> read_calendar i = read_calendar i'.
  Proof.
    intros i i' c T T'. destruct c as [n ps cs]. destruct (str_eq_dec n (lit "VCALENDAR")) as [->|N].
    - transitivity (Ok (E := verror) (mk_pcal ps cs)); [|symmetry]; apply read_calendar_exact; left; eauto.
    - transitivity (Ok (E := verror) (mk_pcal [] [mk_pcomp n ps cs])); [|symmetry]; apply read_calendar_exact; right; left; eexists; eauto.
  Qed.

  (** ** Folded texts *)

  Lemma last_cases : forall (a : str) c, (exists a', a = a' ++ [c]) \/ forall a', a <> a' ++ [c].
  Proof.
    intros a c. induction a as [|d r _] using rev_ind; [right; intros a' F; destruct a'; discriminate F|].
    destruct (N.eq_dec d c) as [->|C]; [left; now exists r|right; intros a' F]. apply app_inj_tail in F as (_ & F). easy.
  Qed.
  Lemma blank_dec : forall c, Spec.blank c \/ ~ Spec.blank c.
  Proof. intros c. unfold Spec.blank. destruct (N.eq_dec c SP), (N.eq_dec c TAB); tauto. Qed.
  Lemma across_dec : forall a b, across a b \/ ~ across a b.
  Proof.
    intros a b.
    assert (D : forall y, (exists c r, Spec.blank c /\ b = y ++ c :: r) \/ ~ exists c r, Spec.blank c /\ b = y ++ c :: r).
    { intros y. destruct (starts_with y b) eqn:S.
      - apply starts_with_spec in S as [[|c r] ->].
        + right. intros (c & r & _ & E). apply (f_equal (@length N)) in E. rewrite !app_length in E. cbn in E. lia.
        + destruct (blank_dec c) as [B|B]; [left; eauto|right]. intros (c' & r' & B' & E). apply app_inv_head in E. injection E as <- _. easy.
      - right. intros (c & r & _ & ->). now rewrite starts_with_app in S. }
    destruct (last_cases a LF) as [(x & ->)|L].
    - destruct (D []) as [(c & r & B & ->)|N].
      + left. exists x, [LF], [c], r. repeat split; try easy. exists c. auto.
      + right. intros (a' & x' & y & b' & E & -> & X & Y & M). destruct (mark_parts _ _ M X Y) as (c & B & [(-> & ->)|[(-> & ->)|(-> & ->)]]).
        * apply app_inj_tail in E as [_ E]. discriminate E.
        * apply N. exists c, b'. auto.
        * apply N. exists c, b'. auto.
    - destruct (last_cases a CR) as [(x & ->)|C].
      + destruct (D [LF]) as [(c & r & B & ->)|N].
        * left. exists x, [CR], [LF; c], r. repeat split; try easy. exists c. auto.
        * right. intros (a' & x' & y & b' & E & -> & X & Y & M). destruct (mark_parts _ _ M X Y) as (c & B & [(-> & ->)|[(-> & ->)|(-> & ->)]]).
          -- apply N. exists c, b'. auto.
          -- apply (L (a' ++ [CR])). rewrite <- app_assoc. exact E.
          -- now apply (L a').
      + right. intros (a' & x' & y & b' & E & -> & X & Y & M). destruct (mark_parts _ _ M X Y) as (c & B & [(-> & ->)|[(-> & ->)|(-> & ->)]]).
        * now apply (C a').
        * apply (L (a' ++ [CR])). rewrite <- app_assoc. exact E.
        * now apply (L a').
  Qed.
  Lemma across_head : forall a c b, ~ In c [CR; LF; SP; TAB] -> ~ across a (c :: b).
  Proof.
    intros a c b N (a' & x & y & b' & _ & E & X & Y & M). apply N. destruct (mark_parts _ _ M X Y) as (d & B & D).
    assert (H : c = LF \/ Spec.blank c).
    { destruct D as [(_ & ->)|[(_ & ->)|(_ & ->)]]; injection E as -> _; auto. }
    destruct H as [->|[->| ->]]; cbn; auto.
  Qed.
  Lemma unfold_tail : forall w c, ~ In c [CR; LF; SP; TAB] -> unfold (w ++ [c; CR; LF]) = unfold w ++ [c; CR; LF].
  Proof.
    intros w c N. rewrite unfold_app by now apply across_head. f_equal.
    rewrite unfold_kept; [reflexivity|]. intros H. apply fold_mark_mark in H as (m & r & (d & _ & [->| ->]) & E); injection E as -> _; apply N; cbn; auto.
  Qed.
  Lemma unfold_ends : forall w c x, In x [[]; [CR]] -> ~ In c [CR; LF; SP; TAB] -> unfold (w ++ c :: x) = unfold w ++ c :: x.
  Proof.
    intros w c x X N. rewrite unfold_app by now apply across_head. f_equal.
    rewrite unfold_kept; [destruct X as [<-|[<-|[]]]; reflexivity|].
    intros H. apply fold_mark_mark in H as (m & r & (d & _ & [->| ->]) & E); injection E as -> _; apply N; cbn; auto.
  Qed.
  Lemma unfold_cut : forall s0 z w c, s0 ++ z = w ++ [c; CR; LF] -> ~ In c [CR; LF; SP; TAB] -> 2 < length z ->
    exists u e z', unfold s0 = u ++ e /\ unfold (s0 ++ z) = u ++ z' /\ 2 < length z' /\ short e.
  Proof.
    intros s0 z w c E N L.
    assert (Z : exists z0, z = z0 ++ [c; CR; LF]).
    { symmetry in E. apply TruncProofs.app_cases in E as [(x & -> & ->)|(x & -> & E & X)]; [now exists x|].
      destruct x as [|x1 x]; [easy|]. apply (f_equal (@length BinNums.N)) in E. cbn in E. rewrite app_length in E. lia. }
    destruct Z as [z0 ->]. destruct (across_dec s0 (z0 ++ [c; CR; LF])) as [A|A].
    - destruct (across_parts _ _ A) as (a' & x & y & b' & -> & Ez & X & M & Sx & Na & _).
      exists (unfold a'), x, (unfold b'). split; [|split; [|split]].
      + rewrite unfold_app, Sx; [easy|]. intros (a1 & x1 & y1 & b1 & -> & -> & R). apply Na. exists a1, x1, y1, (b1 ++ y ++ b'). rewrite <- !app_assoc. tauto.
      + rewrite Ez, <- app_assoc, unfold_app by easy. now rewrite (app_assoc x), (mark_unfold _ _ M).
      + assert (Q : exists b0, b' = b0 ++ [c; CR; LF]).
        { apply TruncProofs.app_cases in Ez as [(q & -> & ->)|(q & -> & Eq & Q)]; [now exists q|]. exfalso. destruct q as [|q1 q]; [easy|].
          injection Eq as <- _. apply N. assert (I : In c (x ++ z0 ++ c :: q)) by (rewrite !in_app_iff; right; right; now left).
          destruct M as (d & [->| ->] & [M|M]); rewrite M in I; cbn in I; cbn; intuition. }
        destruct Q as [b0 ->]. rewrite unfold_tail by easy. rewrite app_length. cbn. lia.
      + destruct y as [|y1 y].
        { exfalso. rewrite app_nil_r in M. pose proof (mark_unfold x [] M) as Q. rewrite app_nil_r, Sx in Q. easy. }
        destruct (mark_parts _ _ M X ltac:(easy)) as (d & _ & [(-> & _)|[(-> & _)|(-> & _)]]); cbn; auto.
    - exists (unfold s0), [], (unfold (z0 ++ [c; CR; LF])). rewrite app_nil_r. split; [easy|]. split; [now apply unfold_app|]. split; [|now left].
      rewrite unfold_tail by easy. rewrite app_length. cbn. lia.
  Qed.

  (** ** Written calendars *)

  Lemma strict_render : forall t, strict_text t = render CrLf t.
  Proof.
    induction t as [n its IH] using wtree_deep. cbn [strict_text render end_of]. do 4 f_equal. f_equal. apply map_ext_in. intros [l|t] I; [easy|now apply IH].
  Qed.
  Lemma tree_single : forall t, tree_fine t -> tree_all breakless t -> single (wtree_of t).
  Proof.
    induction t as [k ps cs IH] using tree_deep. intros G A. inversion G as [? ? ? K P C]; subst. inversion A as [? ? ? AP AC]; subst. cbn [wtree_of].
    constructor. apply Forall_app. split; apply Forall_map.
    - apply Forall_forall. intros p I. constructor. rewrite Forall_forall in P, AP. rewrite line_of_text. apply line_no_cr; [apply P|apply AP]; easy.
    - clear - IH C AC. induction IH as [|c cs H _ IHl]; [constructor|]. inversion C; inversion AC; subst. constructor; [constructor; auto|auto].
  Qed.
  Lemma last_char : forall n, name_ok n -> exists a c, lit "END:" ++ n = a ++ [c] /\ ~ In c [CR; LF; SP; TAB].
  Proof.
    intros n. induction n as [|c n _] using rev_ind; intros K.
    - exists (lit "END"), COLON. split; [reflexivity|]. intros I. vm_compute in I. intuition discriminate.
    - exists (lit "END:" ++ n), c. split; [apply app_assoc|]. intros I. apply (name_no_special _ c K); [|apply in_app_iff; right; now left].
      cbn in I |- *. intuition.
  Qed.
  Lemma tree_tail : forall t s, tree_fine t -> tree_write t = Ret s -> exists w c, s = w ++ [c; CR; LF] /\ ~ In c [CR; LF; SP; TAB].
  Proof.
    intros t s G W. apply tree_write_spec in W. inversion W as [k ps ts cs ss F1 F2]; subst. inversion G as [? ? ? K _ _]; subst.
    destruct (last_char k K) as (a & c & E & N). exists (lit "BEGIN:" ++ k ++ [CR; LF] ++ concat ts ++ concat ss ++ a), c. split; [|easy].
    rewrite (app_assoc (lit "END:")), E, <- !app_assoc. reflexivity.
  Qed.
  Theorem tree_text_cut : forall t s s0 z, tree_fine t -> tree_all breakless t -> tree_write t = Ret s -> s = s0 ++ z ->
    (2 < length z -> (calendar_from_str s0 = Ok cal_empty \/ exists e, calendar_from_str s0 = Err e) /\ exists e, cc_from_str s0 = Err e)
    /\ (z = [CR; LF] -> calendar_from_str s0 = calendar_from_str s /\ cc_from_str s0 = cc_from_str s)
    /\ (z = [LF] -> calendar_from_str s0 = Ok cal_empty /\ cc_from_str s0 = cc_from_str s).
  Proof.
    intros t s s0 z G A W ->. pose proof (tree_text_unfold _ _ G W) as T. rewrite <- strict_render in T.
    destruct (tree_tail _ _ G W) as (w & c & E & N). pose proof (wtree_of_ok t G) as O. pose proof (tree_single t G A) as Sg.
    unfold calendar_from_str, cc_from_str. split; [|split].
    - intros L. destruct (unfold_cut _ _ _ _ E N L) as (u & e & z' & E0 & E1 & L' & Se). rewrite E1 in T. rewrite E0.
      destruct (not_read (u ++ e)) as [R1 [x R2]]; [now apply (cut_reads (wtree_of t) u z' e)|]. split.
      + destruct R1 as [->|[y ->]]; [now left|right; now exists y].
      + rewrite R2. now exists x.
    - intros ->. assert (s0 = w ++ [c]) as ->.
      { change [c; CR; LF] with ([c] ++ [CR; LF]) in E. rewrite app_assoc in E. now apply app_inv_tail in E. }
      rewrite <- app_assoc in T |- *. cbn [app] in T |- *. rewrite (unfold_tail w c N) in T |- *. rewrite (unfold_ends w c []) by (now left || easy).
      assert (R : forall e j, after_breaks e j -> text_reads ((unfold w ++ [c]) ++ e) (wtree_read (wtree_of t)) j).
      { intros e j Ae. apply whole_reads; try easy. exists [CR; LF]. split; [easy|]. rewrite <- app_assoc. now rewrite <- T. }
      pose proof (R [] [] (self_after _ no_break_nil)) as R1. rewrite app_nil_r in R1.
      assert (R2 : text_reads (unfold w ++ [c; CR; LF]) (wtree_read (wtree_of t)) []).
      { change [c; CR; LF] with ([c] ++ [CR; LF]). rewrite app_assoc. apply R. apply (proj2 (break_ends [] [])); [constructor|apply self_after, no_break_nil]. }
      split; [now rewrite (read_same _ _ _ R1 R2)|]. f_equal. transitivity (Ok (E := verror) (wtree_read (wtree_of t))); [|symmetry]; apply read_component_exact; eauto.
    - intros ->. assert (s0 = w ++ [c; CR]) as ->.
      { change [c; CR; LF] with ([c; CR] ++ [LF]) in E. rewrite app_assoc in E. now apply app_inv_tail in E. }
      rewrite <- app_assoc in T |- *. cbn [app] in T |- *. rewrite (unfold_tail w c N) in T |- *. rewrite (unfold_ends w c [CR]) by (cbn; auto).
      assert (R : forall e j, after_breaks e j -> text_reads ((unfold w ++ [c]) ++ e) (wtree_read (wtree_of t)) j).
      { intros e j Ae. apply whole_reads; try easy. exists [CR; LF]. split; [easy|]. rewrite <- app_assoc. now rewrite <- T. }
      assert (R1 : text_reads (unfold w ++ [c; CR]) (wtree_read (wtree_of t)) [CR]).
      { change [c; CR] with ([c] ++ [CR]). rewrite app_assoc. apply R. apply self_after. split; reflexivity. }
      assert (R2 : text_reads (unfold w ++ [c; CR; LF]) (wtree_read (wtree_of t)) []).
      { change [c; CR; LF] with ([c] ++ [CR; LF]). rewrite app_assoc. apply R. apply (proj2 (break_ends [] [])); [constructor|apply self_after, no_break_nil]. }
      split.
      + assert (Q : read_calendar (unfold w ++ [c; CR]) = Ok (mk_pcal [] [])); [|now rewrite Q].
        apply read_calendar_exact. right. right. split; [|easy]. destruct R1 as (j & Aj & C). exists j. split; [easy|]. right. right. eexists. exists [CR]. split; [easy|exact C].
      + f_equal. transitivity (Ok (E := verror) (wtree_read (wtree_of t))); [|symmetry]; apply read_component_exact; eauto.
  Qed.

  Theorem doc_cut : forall t u z, wtree_ok CrLf t -> single t -> strict_text t = u ++ z ->
    (2 < length z -> (read_calendar u = Ok (mk_pcal [] []) \/ exists e, read_calendar u = Err e) /\ exists e, read_component u = Err e)
    /\ (z = [CR; LF] -> read_calendar u = read_calendar (u ++ z) /\ read_component u = read_component (u ++ z))
    /\ (z = [LF] -> read_calendar u = Ok (mk_pcal [] []) /\ read_component u = read_component (u ++ z)).
  Proof.
    intros t u z O G E. split; [|split].
    - intros L. apply not_read. pose proof (cut_reads t u z [] O G E L (or_introl eq_refl)) as N. now rewrite app_nil_r in N.
    - intros ->.
      assert (R : forall e j, after_breaks e j -> text_reads (u ++ e) (wtree_read t) j) by (intros e j Ae; apply whole_reads; try easy; now exists [CR; LF]).
      pose proof (R [] [] (self_after _ no_break_nil)) as R1. rewrite app_nil_r in R1.
      pose proof (R [CR; LF] [] (proj2 (break_ends [] []) ltac:(constructor) [] (self_after _ no_break_nil))) as R2.
      split; [apply (read_same _ _ _ R1 R2)|]. transitivity (Ok (E := verror) (wtree_read t)); [|symmetry]; apply read_component_exact; eauto.
    - intros ->. assert (exists v, u = v ++ [CR] /\ strict_text t = v ++ [CR; LF]) as (v & -> & Ev).
      { destruct t as [n its]. rewrite render_eq in E. change [CR; LF] with ([CR] ++ [LF]) in E. rewrite !app_assoc in E.
        apply app_inv_tail in E as <-. eexists. split; [reflexivity|]. rewrite render_eq, <- !app_assoc. reflexivity. }
      assert (R : forall e j, after_breaks e j -> text_reads (v ++ e) (wtree_read t) j) by (intros e j Ae; apply whole_reads; try easy; now exists [CR; LF]).
      assert (R1 : text_reads (v ++ [CR]) (wtree_read t) [CR]) by (apply R, self_after; split; reflexivity).
      pose proof (R [CR; LF] [] (proj2 (break_ends [] []) ltac:(constructor) [] (self_after _ no_break_nil))) as R2.
      rewrite <- app_assoc. cbn [app]. split.
      + apply read_calendar_exact. right. right. split; [|easy]. destruct R1 as (j & Aj & C). exists j. split; [easy|]. right. right. eexists. exists [CR]. split; [easy|exact C].
      + transitivity (Ok (E := verror) (wtree_read t)); [|symmetry]; apply read_component_exact; eauto.
  Qed.
  Theorem cal_cut : forall e c s s0 z, clock_ok e -> cal_fine c -> cal_all breakless c -> cal_write e c = Ret s -> s = s0 ++ z ->
    (2 < length z -> calendar_from_str s0 = Ok cal_empty \/ exists e, calendar_from_str s0 = Err e)
    /\ (z = [CR; LF] -> calendar_from_str s0 = calendar_from_str s)
    /\ (z = [LF] -> calendar_from_str s0 = Ok cal_empty).
  Proof.
    intros e c s s0 z C [P F] A W E. rewrite cal_write_tree in W by easy.
    destruct (tree_text_cut (cal_tree e c) s s0 z) as (R1 & R2 & R3); try easy; [| |split; [|split]; intros H; [apply R1|apply R2|apply R3]; exact H].
    - apply fit_fine. constructor; [apply name_ok_spec; reflexivity|easy|]. clear - F. generalize 0.
      induction F as [|x l (K & M & O) _ IH]; intros n; cbn [kinds map stamp_trees fst]; constructor; [|apply IH].
      apply stamp_tree_fit; [now apply made_well|easy|easy].
    - apply cal_tree_all; [|easy|apply stamp_breakless|apply uid_breakless]. eapply Forall_impl; [|exact F]. now intros x (_ & M & _).
  Qed.
  Theorem comp_cut : forall e x n n' s s0 z, clock_ok e -> comp_fine x -> inner_all breakless (cc_inner x) -> cc_write e x n = Ret (s, n') -> s = s0 ++ z ->
    (2 < length z -> exists e, cc_from_str s0 = Err e) /\ (length z <= 2 -> cc_from_str s0 = cc_from_str s).
  Proof.
    intros e x n n' s s0 z C (K & M & O) A W E. unfold cc_write in W. rewrite inner_write_tree in W by easy.
    destruct (tree_write _) as [s1| |] eqn:T; cbn [obind] in W; try easy. injection W as <- _.
    apply made_well in M. assert (G : tree_fine (fst (stamp_tree e (cc_kind x) (cc_inner x) n))) by now apply fit_fine, stamp_tree_fit.
    destruct (tree_text_cut _ s1 s0 z G) as (R1 & R2 & R3); try easy.
    - apply stamp_tree_all; try easy; [apply stamp_breakless|apply uid_breakless].
    - split; [intros L; now apply R1|intros L]. destruct (tree_tail _ _ G T) as (w & d & Es & _).
      destruct z as [|z1 [|z2 [|z3 z]]]; cbn in L; [rewrite E, app_nil_r; easy| | |lia].
      + apply R3. rewrite Es in E. change (w ++ [d; CR; LF]) with (w ++ [d; CR] ++ [LF]) in E. rewrite app_assoc in E. apply app_inj_tail in E as [_ <-]. easy.
      + apply R2. rewrite Es in E. change (w ++ [d; CR; LF]) with (w ++ [d; CR] ++ [LF]) in E. rewrite app_assoc in E.
        change [z1; z2] with ([z1] ++ [z2]) in E. rewrite app_assoc in E. apply app_inj_tail in E as [E <-].
        change [d; CR] with ([d] ++ [CR]) in E. rewrite app_assoc in E. apply app_inj_tail in E as [_ <-]. easy.
  Qed.
  Theorem inside_cut : forall n its t u z, wtree_ok CrLf (W n (its ++ [inr t])) -> single t -> strict_text t = u ++ z -> 5 <= length u -> 2 < length z ->
    let s := lit "BEGIN:" ++ n ++ [CR; LF] ++ concat (map strict_item its) ++ u in
    (exists e, read_calendar s = Err e) /\ (exists e, read_component s = Err e).
  Proof.
    intros n its t u z O G E L5 L2 s. inversion O as [? ? Hn Hits]; subst. apply Forall_app in Hits as [Hits Ht]. inversion Ht as [|? ? Hr _]; subst. inversion Hr as [|? Ot]; subst.
    pose proof (inside_fails n its t u z Hits Ot G E L5 L2) as B.
    assert (T : text_fails s).
    { exists s. split; [apply self_after, no_break_head; discriminate|]. unfold s. apply (cf_comp (lit "BEGIN:") n ([CR; LF] ++ concat (map strict_item its) ++ u) (concat (map strict_item its) ++ u)); try easy.
      - apply (proj1 (break_ends n _)).
      - apply (proj2 (break_ends n _)); [easy|]. apply self_after, concat_start; [easy|]. destruct t as [m js]. rewrite render_eq in E.
        destruct u as [|c u]; [cbn in L5; lia|]. injection E as <- _. apply no_break_head; discriminate. }
    split; [now apply read_calendar_exact|]. apply read_component_fails. now left.
  Qed.
End Cut.
