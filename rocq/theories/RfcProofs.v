(** Proofs about the grammar of RFC 5545. *)
From Coq Require Import ZifyBool ZifyNat ZifyN.
From Verif Require Import Str StrFacts Spec Fold Text ValueTypes Property Chrono DateTime Component Calendar
  SpecBuild SpecDate SpecTree SpecDoc SpecRound SpecText SpecRfc BuildProofs FoldProofs TextProofs DateProofs CalProofs TreeProofs RoundProofs
  MoreProofs LfProofs WrittenProofs.

(** ** The grammar is unambiguous *)

Lemma stop_unique : forall (P : char -> Prop) a b x y r s, Forall P a -> Forall P b -> ~ P x -> ~ P y ->
  a ++ x :: r = b ++ y :: s -> a = b /\ x = y /\ r = s.
Proof.
  intros P a b x y r s A. revert b. induction A as [|c a H A IH]; intros b B X Y E; destruct B as [|d b D B]; cbn [app] in E.
  - now injection E.
  - injection E as -> ->. easy.
  - injection E as -> <-. easy.
  - injection E as -> E. apply IH in E as (-> & -> & ->); easy.
Qed.
Lemma token_stop : forall a b x y r s, token a -> token b -> ~ token_char x -> ~ token_char y ->
  a ++ x :: r = b ++ y :: s -> a = b /\ x = y /\ r = s.
Proof. intros a b x y r s [_ A] [_ B]. now apply stop_unique. Qed.
Lemma tokenless : forall c, In c [58; 59; 61]%N -> ~ token_char c.
Proof. intros c I. unfold token_char. cbn in I. lia. Qed.

Definition separator (c : char) : Prop := In c [44; 58; 59]%N.
Lemma separator_unsafe : forall c, separator c -> ~ safe_char c.
Proof. intros c S. unfold separator, safe_char in *. cbn in S. lia. Qed.
Lemma pvalue_stop : forall v t w u x y r s, rfc_pvalue v t -> rfc_pvalue w u -> separator x -> separator y ->
  t ++ x :: r = u ++ y :: s -> v = w /\ x = y /\ r = s.
Proof.
  intros v t w u x y r s [a A|a A] [b B|b B] X Y E.
  - eapply stop_unique in E; eauto using separator_unsafe.
  - exfalso. destruct A as [|c a C A]; cbn [app] in E.
    + injection E as -> _. vm_compute in X. intuition discriminate.
    + injection E as -> _. destruct C as [[_ C] _]. easy.
  - exfalso. destruct B as [|c b C B]; cbn [app] in E.
    + injection E as <- _. vm_compute in Y. intuition discriminate.
    + injection E as <- _. destruct C as [[_ C] _]. easy.
  - cbn [app] in E. injection E as E. rewrite <- !app_assoc in E. cbn [app] in E.
    apply (stop_unique quoted_char) in E as (-> & _ & E); [|assumption|assumption|now intros [_ ?]|now intros [_ ?]].
    injection E as -> ->. easy.
Qed.
Lemma pvalues_stop : forall vs t ws u x y r s, rfc_pvalues vs t -> rfc_pvalues ws u -> In x [58; 59]%N -> In y [58; 59]%N ->
  t ++ x :: r = u ++ y :: s -> vs = ws /\ x = y /\ r = s.
Proof.
  intros vs t ws u x y r s V. revert ws u.
  assert (SEP : forall c, In c [58; 59]%N -> separator c) by (intros c I; now right).
  assert (CS : separator 44%N) by now left.
  induction V as [v t V|v t vs ts V _ IH]; intros ws u W X Y E; destruct W as [w u W|w u ws us W WS].
  - apply (pvalue_stop _ _ _ _ _ _ _ _ V W (SEP _ X) (SEP _ Y)) in E as (-> & -> & ->). easy.
  - exfalso. rewrite <- app_assoc in E. cbn [app] in E. apply (pvalue_stop _ _ _ _ _ _ _ _ V W (SEP _ X) CS) in E as (_ & -> & _).
    cbn in X. intuition discriminate.
  - exfalso. rewrite <- app_assoc in E. cbn [app] in E. apply (pvalue_stop _ _ _ _ _ _ _ _ V W CS (SEP _ Y)) in E as (_ & <- & _).
    cbn in Y. intuition discriminate.
  - rewrite <- !app_assoc in E. cbn [app] in E. apply (pvalue_stop _ _ _ _ _ _ _ _ V W CS CS) in E as (-> & _ & E).
    apply (IH ws us) in E as (-> & -> & ->); try assumption. easy.
Qed.
Lemma params_next : forall ps t v, rfc_params ps t -> exists x r, In x [58; 59]%N /\ t ++ 58%N :: v = x :: r.
Proof.
  intros ps t v [|k vs u qs ts _ _ _]; cbn [app]; eexists _, _; (split; [|reflexivity]); cbn; tauto.
Qed.
Lemma params_stop : forall ps t qs u v w, rfc_params ps t -> rfc_params qs u ->
  t ++ 58%N :: v = u ++ 58%N :: w -> ps = qs /\ v = w.
Proof.
  intros ps t qs u v w P. revert qs u. induction P as [|k vs t ps ts K V P IH]; intros qs u Q E; destruct Q as [|k' vs' u qs us K' V' Q].
  - now injection E as ->.
  - easy.
  - easy.
  - cbn [app] in E. injection E as E. rewrite <- !app_assoc in E. cbn [app] in E.
    apply token_stop in E as (-> & _ & E); [|assumption|assumption|apply tokenless; cbn; tauto|apply tokenless; cbn; tauto].
    rewrite <- !app_assoc in E. destruct (params_next ps ts v P) as (x & r & X & EX). destruct (params_next qs us w Q) as (y & s & Y & EY).
    rewrite EX, EY in E. apply (pvalues_stop _ _ _ _ _ _ _ _ V V' X Y) in E as (-> & -> & ->). rewrite <- EY in EX.
    apply (IH qs us Q) in EX as [-> ->]. easy.
Qed.
Lemma line_reading : forall a b l, rfc_line a l -> rfc_line b l -> a = b.
Proof.
  intros [k ps v] [k' ps' v'] l (K & V & t & P & ->) (K' & V' & t' & P' & E). cbn [rl_name rl_params rl_value] in *.
  destruct (params_next ps t v P) as (x & r & X & EX). destruct (params_next ps' t' v' P') as (y & s & Y & EY).
  rewrite EX, EY in E. apply token_stop in E as (-> & -> & ->); [|assumption|assumption| | ].
  - rewrite <- EY in EX. apply params_stop with (1 := P) (2 := P') in EX as [-> ->]. easy.
  - apply tokenless. cbn in X |- *. tauto.
  - apply tokenless. cbn in Y |- *. tauto.
Qed.

Lemma text_reading : forall a b w, rfc_text a w -> rfc_text b w -> a = b.
Proof.
  intros a b w A. revert b. induction A as [|c t w C N _ IH|c t w C _ IH|n t w C _ IH]; intros b B.
  - now inversion B.
  - inversion B as [|? ? ? ? ? B'|? ? ? ? B'|? ? ? ? B']; subst; [f_equal; now apply IH| | ]; exfalso; apply N; now left.
  - inversion B as [|? ? ? ? N B'|? ? ? ? B'|? ? ? C' B']; subst.
    + exfalso. apply N. now left.
    + f_equal. now apply IH.
    + exfalso. cbn in C, C'. lia.
  - inversion B as [|? ? ? ? N B'|? ? ? C' B'|? ? ? ? B']; subst.
    + exfalso. apply N. now left.
    + exfalso. cbn in C, C'. lia.
    + f_equal. now apply IH.
Qed.

Definition no_blank_start (s : str) : Prop := forall b r, s = b :: r -> ~ In b [9; 32]%N.
Lemma fold_stop : forall l t m u r s, rfc_fold l t -> rfc_fold m u -> ~ In 13%N l -> ~ In 13%N m ->
  no_blank_start r -> no_blank_start s -> t ++ r = u ++ s -> l = m /\ r = s.
Proof.
  intros l t m u r s L. revert m u. induction L as [|c l t L IH|b l t B L IH]; intros m u M NL NM R S E.
  - destruct M as [|c m u M|b m u B M]; cbn [app] in E.
    + now injection E as ->.
    + injection E as <- _. exfalso. apply NM. now left.
    + injection E as E. exfalso. eapply R; eassumption.
  - destruct M as [|c' m u M|b m u B M]; cbn [app] in E.
    + injection E as -> _. exfalso. apply NL. now left.
    + injection E as -> E. cbn [In] in NL, NM. apply IH with (1 := M) in E as [-> ->]; tauto.
    + injection E as -> _. exfalso. apply NL. now left.
  - destruct M as [|c' m u M|b' m u B' M]; cbn [app] in E.
    + injection E as E. exfalso. symmetry in E. eapply S; eassumption.
    + injection E as <- _. exfalso. apply NM. now left.
    + injection E as _ E. apply IH with (1 := M) in E; easy.
Qed.
(** Lines that start with a letter and have no carriage return. *)
Definition solid (l : str) : Prop := ~ In 13%N l /\ exists c r, l = c :: r /\ token_char c.
Lemma fold_starts : forall l t c r, rfc_fold l t -> l = c :: r -> forall b s, t = b :: s -> b = c \/ b = 13%N.
Proof. intros l t c r L -> b s ->. inversion L; subst; [now left|now right]. Qed.
Lemma fold_nonempty : forall l t, rfc_fold l t -> t <> [].
Proof. intros l t []; easy. Qed.
Lemma stream_start : forall ls ts, Forall2 rfc_fold ls ts -> Forall solid ls -> no_blank_start (concat ts).
Proof.
  intros ls ts F S b r E. destruct F as [|l t ls ts L F]; [easy|]. inversion S as [|? ? (N & c & q & -> & C) _]; subst.
  cbn [concat] in E. pose proof (fold_nonempty _ _ L) as NE. destruct t as [|d t]; [easy|]. injection E as -> E.
  destruct (fold_starts _ _ _ _ L eq_refl _ _ eq_refl) as [->| ->].
  - unfold token_char in C. cbn. lia.
  - cbn. lia.
Qed.
Lemma stream_unique : forall ls ts ms us, Forall2 rfc_fold ls ts -> Forall2 rfc_fold ms us -> Forall solid ls -> Forall solid ms ->
  concat ts = concat us -> ls = ms.
Proof.
  intros ls ts ms us L. revert ms us. induction L as [|l t ls ts F L IH]; intros ms us M SL SM E; destruct M as [|m u ms us G M]; [easy| | | ].
  - exfalso. cbn [concat] in E. apply (fold_nonempty _ _ G). symmetry in E. now apply app_eq_nil in E.
  - exfalso. cbn [concat] in E. apply (fold_nonempty _ _ F). now apply app_eq_nil in E.
  - inversion SL as [|? ? S1 S2]; subst. inversion SM as [|? ? S3 S4]; subst. cbn [concat] in E.
    apply (fold_stop l t m u _ _ F G (proj1 S1) (proj1 S3) (stream_start ls ts L S2) (stream_start ms us M S4)) in E as [-> E].
    f_equal. now apply (IH ms us).
Qed.

Lemma token_solid : forall k, token k -> ~ In 13%N k.
Proof. intros k [_ F] I. rewrite Forall_forall in F. apply F in I. unfold token_char in I. lia. Qed.
Lemma pvalue_chars : forall v t, rfc_pvalue v t -> Forall value_char t.
Proof.
  intros v t [w F|w F].
  - eapply Forall_impl; [|exact F]. now intros c [[H _] _].
  - constructor; [unfold value_char, control; lia|]. apply Forall_app. split.
    + eapply Forall_impl; [|exact F]. now intros c [H _].
    + repeat constructor. unfold value_char, control. lia.
Qed.
Lemma pvalues_chars : forall vs t, rfc_pvalues vs t -> Forall value_char t.
Proof.
  intros vs t V. induction V as [v t V|v t vs ts V _ IH]; [now apply pvalue_chars in V|].
  apply Forall_app. split; [now apply pvalue_chars in V|]. constructor; [unfold value_char, control; lia|exact IH].
Qed.
Lemma token_chars : forall k, token k -> Forall value_char k.
Proof. intros k [_ F]. eapply Forall_impl; [|exact F]. intros c. unfold token_char, value_char, control. lia. Qed.
Lemma params_chars : forall ps t, rfc_params ps t -> Forall value_char t.
Proof.
  intros ps t P. induction P as [|k vs t ps ts K V _ IH]; constructor; [unfold value_char, control; lia|].
  apply Forall_app. split; [now apply token_chars|]. constructor; [unfold value_char, control; lia|].
  apply Forall_app. split; [now apply pvalues_chars in V|exact IH].
Qed.
Lemma line_chars : forall r l, rfc_line r l -> Forall value_char l.
Proof.
  intros r l (K & V & t & P & ->). apply Forall_app. split; [now apply token_chars|].
  apply Forall_app. split; [now apply params_chars in P|]. constructor; [unfold value_char, control; lia|exact V].
Qed.
Lemma line_solid : forall r l, rfc_line r l -> solid l.
Proof.
  intros r l R. split.
  - intros I. apply line_chars in R. rewrite Forall_forall in R. apply R in I. apply I. unfold control. lia.
  - destruct R as ((K1 & K2) & _ & t & _ & ->). destruct (rl_name r) as [|c k]; [easy|]. inversion K2; subst. cbn [app]. eauto.
Qed.
Lemma begin_line : forall k, token k -> rfc_line (RLine (lit "BEGIN") [] k) (lit "BEGIN:" ++ k).
Proof.
  intros k K. split; [|split].
  - split; [easy|]. repeat constructor; vm_compute; intuition discriminate.
  - now apply token_chars.
  - exists []. split; [constructor|reflexivity].
Qed.
Lemma end_line : forall k, token k -> rfc_line (RLine (lit "END") [] k) (lit "END:" ++ k).
Proof.
  intros k K. split; [|split].
  - split; [easy|]. repeat constructor; vm_compute; intuition discriminate.
  - now apply token_chars.
  - exists []. split; [constructor|reflexivity].
Qed.

Fixpoint rtree_deep (P : rtree -> Prop) (H : forall k rs cs, Forall P cs -> P (RNode k rs cs)) (t : rtree) : P t :=
  match t with
  | RNode k rs cs => H k rs cs ((fix go l := match l return Forall P l with
                                             | [] => Forall_nil P
                                             | x :: r => Forall_cons x (rtree_deep P H x) (go r)
                                             end) cs)
  end.
Lemma component_solid : forall t ls, rfc_component t ls -> Forall solid ls.
Proof.
  induction t as [k rs cs IH] using rtree_deep. intros ls C. inversion C as [? ? ps ? lss K P S]; subst. clear C.
  constructor; [eapply line_solid, begin_line, K|]. apply Forall_app. split; [|apply Forall_app; split].
  - clear - P. induction P as [|r l rs ps [_ H] _ IH]; constructor; [now apply line_solid in H|exact IH].
  - clear - IH S. induction S as [|c ls cs lss H _ IHS]; [constructor|]. inversion IH; subst. cbn [concat]. apply Forall_app. auto.
  - constructor; [|constructor]. eapply line_solid, end_line, K.
Qed.
Lemma name_begin : forall r, property_name (rl_name r) -> rl_name r <> lit "BEGIN".
Proof. intros r (_ & N & _) E. rewrite E in N. now apply N. Qed.
Lemma name_end : forall r, property_name (rl_name r) -> rl_name r <> lit "END".
Proof. intros r (_ & _ & N) E. rewrite E in N. now apply N. Qed.
(** A line after the properties: BEGIN or END. *)
Definition mark (l : str) : Prop := exists k, token k /\ (l = lit "BEGIN:" ++ k \/ l = lit "END:" ++ k).
Lemma mark_prop : forall l r, mark l -> property_name (rl_name r) -> rfc_line r l -> False.
Proof.
  intros l r (k & K & [->| ->]) N R.
  - eapply line_reading in R; [|exact (begin_line k K)]. apply (name_begin r N). now rewrite <- R.
  - eapply line_reading in R; [|exact (end_line k K)]. apply (name_end r N). now rewrite <- R.
Qed.
Lemma props_stop : forall rs ls rs' ls' x y r s,
  Forall2 (fun r l => property_name (rl_name r) /\ rfc_line r l) rs ls ->
  Forall2 (fun r l => property_name (rl_name r) /\ rfc_line r l) rs' ls' ->
  mark x -> mark y -> ls ++ x :: r = ls' ++ y :: s -> rs = rs' /\ x = y /\ r = s.
Proof.
  intros rs ls rs' ls' x y r s F. revert rs' ls'. induction F as [|a l rs ls [N L] F IH]; intros rs' ls' G X Y E; destruct G as [|a' l' rs' ls' [N' L'] G]; cbn [app] in E.
  - now injection E.
  - injection E as -> _. exfalso. exact (mark_prop _ _ X N' L').
  - injection E as <- _. exfalso. exact (mark_prop _ _ Y N L).
  - injection E as -> E. apply (IH rs' ls') in E as (-> & -> & ->); [|assumption..]. split; [|easy]. f_equal. eapply line_reading; eassumption.
Qed.
Lemma component_first : forall t ls, rfc_component t ls -> exists k r, token k /\ ls = (lit "BEGIN:" ++ k) :: r.
Proof. intros t ls C. destruct C; eauto. Qed.
Lemma subs_first : forall cs lss k r, Forall2 rfc_component cs lss -> token k ->
  exists x s, mark x /\ concat lss ++ (lit "END:" ++ k) :: r = x :: s.
Proof.
  intros cs lss k r F K. destruct F as [|c ls cs lss C F].
  - eexists _, _. split; [|reflexivity]. exists k. tauto.
  - apply component_first in C as (j & q & J & ->). eexists _, _. split; [|reflexivity]. exists j. tauto.
Qed.
Lemma component_reading : forall t ls, rfc_component t ls -> forall t' ls' r s, rfc_component t' ls' -> ls ++ r = ls' ++ s -> t = t' /\ r = s.
Proof.
  induction t as [k rs cs IH] using rtree_deep. intros ls C t' ls' r s C' E.
  inversion C as [? ? ps ? lss K P S]; subst. inversion C' as [k' rs' ps' cs' lss' K' P' S']; subst. clear C C'.
  rewrite <- !app_comm_cons in E. pose proof (f_equal (hd []) E) as EK. apply (f_equal (@tl str)) in E. cbn [hd tl] in EK, E.
  apply app_inv_head in EK. subst k'. rewrite <- !app_assoc, <- !app_comm_cons in E. rewrite !(app_nil_l) in E.
  destruct (subs_first cs lss k r S K) as (x & q & X & EX). destruct (subs_first cs' lss' k s S' K') as (y & q' & Y & EY).
  pose proof E as E0. rewrite EX, EY in E0. apply (props_stop _ _ _ _ _ _ _ _ P P' X Y) in E0 as (-> & <- & <-). rewrite <- EY in EX. clear E EY X Y q x.
  assert (G : cs = cs' /\ r = s); [|destruct G as [-> ->]; easy].
  clear P P' ps ps' rs'. revert cs' lss' S' EX. induction S as [|c l cs lss H S IHS]; intros cs' lss' S' EX; destruct S' as [|c' l' cs' lss' H' S'].
  - cbn [concat app] in EX. now injection EX as ->.
  - exfalso. apply component_first in H' as (j & q & J & ->). cbn [concat app] in EX. injection EX as EX _. clear - EX. now vm_compute in EX.
  - exfalso. apply component_first in H as (j & q & J & ->). cbn [concat app] in EX. injection EX as EX _. clear - EX. now vm_compute in EX.
  - inversion IH as [|? ? I1 I2]; subst. cbn [concat] in EX. rewrite <- !app_assoc in EX.
    apply (I1 _ H _ _ _ _ H') in EX as [-> EX]. apply (IHS I2 _ _ S') in EX as [-> ->]. easy.
Qed.
Lemma document_reading : forall a b s, rfc_document a s -> rfc_document b s -> a = b.
Proof.
  intros a b s (ls & ts & A & F & ->) (ms & us & B & G & E).
  assert (ls = ms) as <- by (eapply stream_unique; eauto using component_solid).
  eapply (component_reading a ls A b ls [] []) in B; [|reflexivity]. easy.
Qed.

(** ** What is written is in the grammar *)

Lemma split_commas : forall v : str, exists x r, v = x ++ concat (map (fun y => 44%N :: y) r) /\ Forall (fun y => ~ In 44%N y) (x :: r).
Proof.
  induction v as [|c v (x & r & -> & F)].
  - exists [], []. split; [reflexivity|]. now repeat constructor.
  - inversion F as [|? ? F1 F2]; subst. destruct (N.eq_dec c 44) as [->|NE].
    + exists [], (x :: r). split; [reflexivity|]. constructor; [easy|exact F].
    + exists (c :: x), r. split; [reflexivity|]. constructor; [|exact F2]. intros [E|I]; [now subst c|now apply F1].
Qed.
Lemma pvalue_says_exists : forall v, exists vs, pvalue_says v vs.
Proof.
  intros v. destruct (in_dec N.eq_dec 58%N v) as [I|I]; [exists [v]; split; tauto|].
  destruct (in_dec N.eq_dec 59%N v) as [J|J]; [exists [v]; split; tauto|].
  destruct (split_commas v) as (x & r & E & F). exists (x :: r). split; [tauto|]. intros _ _. split; [exact F|]. eauto.
Qed.
Lemma plain_values : forall x r, Forall safe_char x -> Forall (Forall safe_char) r ->
  rfc_pvalues (x :: r) (x ++ concat (map (fun y => 44%N :: y) r)).
Proof.
  intros x r X R. revert x X. induction R as [|y r Y _ IH]; intros x X; cbn [map concat].
  - rewrite app_nil_r. constructor. now constructor.
  - cbn [app]. constructor; [now constructor|]. now apply IH.
Qed.
Lemma in_commas : forall y (r : list str) c, In y r -> In c y -> In c (concat (map (fun y => 44%N :: y) r)).
Proof.
  intros y r c I J. apply in_concat. exists (44%N :: y). split; [|now right]. apply in_map_iff. now exists y.
Qed.
Lemma param_in_grammar : forall q t vs ps ts, param_written q t -> pvalue_says (snd q) vs ->
  token (fst q) -> Forall quoted_char (snd q) -> rfc_params ps ts -> rfc_params ((fst q, vs) :: ps) (t ++ ts).
Proof.
  intros q t vs ps ts W [S1 S2] K Q P. destruct W as [k v N1 N2|k v I]; cbn [fst snd] in *.
  - destruct (S2 N1 N2) as (F & x & r & -> & ->). clear S1 S2. cbn [app]. rewrite <- app_assoc. cbn [app]. constructor; [easy| |easy].
    inversion F as [|? ? F1 F2]; subst. rewrite in_app_iff in N1, N2.
    apply Forall_app in Q as [Q1 Q2]. apply plain_values.
    + rewrite Forall_forall in Q1 |- *. intros c J. split; [now apply Q1|].
      split; [intros ->; tauto|]. split; intros ->; tauto.
    + rewrite Forall_forall in Q2, F2 |- *. intros y Y. rewrite Forall_forall. intros c J.
      pose proof (in_commas y r c Y J) as JJ. split; [now apply Q2|].
      split; [intros ->; now apply (F2 y)|]. split; intros ->; tauto.
  - rewrite (S1 I). cbn [app]. rewrite <- app_assoc. cbn [app]. rewrite <- app_assoc. cbn [app].
    change (34%N :: v ++ 34%N :: ts) with (DQ :: v ++ DQ :: ts).
    replace (DQ :: v ++ DQ :: ts) with ((34%N :: v ++ [34%N]) ++ ts) by (cbn [app]; now rewrite <- app_assoc).
    constructor; [easy| |easy]. constructor. now constructor.
Qed.

Section WithUnicode.
  Context {U : Unicode}.

  Lemma text_char_value : forall c s, char_written c s -> (Forall value_char s <-> ~ control c \/ c = 10%N).
  Proof.
    intros c s H. destruct H as [c N|c I|].
    - split.
      + intros F. inversion F; subst. now left.
      + intros [H| ->]; [now repeat constructor|]. exfalso. apply N. cbn. tauto.
    - split; [|intros _].
      + intros F. left. inversion F as [|? ? _ F']; subst. now inversion F'.
      + vm_compute in I. repeat constructor; unfold value_char, control; [vm_compute; intuition discriminate|lia].
    - split; [now right|]. intros _. repeat constructor; vm_compute; intuition discriminate.
  Qed.
  Lemma text_value : forall v w, text_written v w -> (Forall value_char w <-> Forall (fun c => ~ control c \/ c = 10%N) v).
  Proof.
    intros v w (ss & F & ->). induction F as [|c s v ss H _ IH]; [split; constructor|]. cbn [concat]. rewrite Forall_app, IH, (text_char_value c s H). split.
    - intros [A B]. now constructor.
    - intros A. now inversion A.
  Qed.
  Lemma text_says : forall v w, text_written v w -> (rfc_text v w <-> Forall (fun c => ~ control c \/ c = 10%N) v).
  Proof.
    intros v w (ss & F & ->). induction F as [|c s v ss H F IH]; [split; constructor|]. cbn [concat]. split.
    - intros R. constructor.
      + destruct H as [c N|c I|]; [|left; vm_compute in I; unfold control; lia|now right]. cbn [app] in R. inversion R; subst; [now left|].
        exfalso. apply N. vm_compute. tauto.
      + apply IH. destruct H as [c N|c I|]; cbn [app] in R.
        * inversion R; subst; [assumption|]; exfalso; apply N; vm_compute; tauto.
        * inversion R as [|? ? ? ? N R'|? ? ? ? R'|? ? ? I' R']; subst; [|assumption|].
          -- exfalso. apply N. vm_compute. tauto.
          -- exfalso. vm_compute in I, I'. lia.
        * inversion R; subst. assumption.
    - intros A. inversion A as [|? ? A1 A2]; subst. apply IH in A2. destruct H as [c N|c I|]; cbn [app].
      + constructor; [| |exact A2].
        * destruct A1 as [A1|A1]; [exact A1|]. exfalso. apply N. subst c. vm_compute. tauto.
        * intros I. apply N. vm_compute in I |- *. tauto.
      + constructor; [|exact A2]. vm_compute in I |- *. tauto.
      + constructor; [|exact A2]. vm_compute. tauto.
  Qed.

  Lemma says_exists : forall p, exists r, property_says p r.
  Proof.
    intros p. assert (P : exists qs, Forall2 (fun q s => fst s = fst q /\ pvalue_says (snd q) (snd s)) (p_params p) qs).
    { induction (p_params p) as [|[k v] l (qs & IH)]; [now exists []|]. destruct (pvalue_says_exists v) as [vs V]. exists ((k, vs) :: qs). now constructor. }
    destruct P as [qs P]. destruct (prop_value_type p) as [[]|] eqn:T;
      match type of T with
      | _ = Some Text => exists (RLine (p_key p) qs (escape_text (p_val p)))
      | _ => exists (RLine (p_key p) qs (p_val p))
      end; (split; [reflexivity|]; split; [exact P|]; cbn [rl_value]; unfold is_text; rewrite T; split; [try discriminate|try easy; intros H; now destruct H]).
    intros _. apply text_written_escape.
  Qed.
  Lemma is_text_dec : forall p, is_text p \/ ~ is_text p.
  Proof. intros p. unfold is_text. destruct (prop_value_type p) as [[]|]; (now left) || (right; discriminate). Qed.
  Lemma line_in_grammar : forall p l r, line_written p l -> property_says p r -> within p -> rfc_line r l.
  Proof.
    intros p l [k qs v] (ts & w & -> & P & T & NT) (E & S & ST & SN) (K & Q & VT & VN). cbn [rl_name rl_params rl_value] in *. subst k.
    assert (v = w /\ Forall value_char w) as [-> V].
    { destruct (is_text_dec p) as [I|I].
      - split; [eapply text_written_unique; [apply ST, I|apply T, I]|]. eapply text_value; [apply T, I|apply VT, I].
      - rewrite (NT I), (SN I). split; [easy|apply VN, I]. }
    split; [exact K|]. split; [exact V|]. exists (concat ts). split; [|reflexivity]. cbn [rl_params]. clear - P S Q.
    revert qs S. induction P as [|q t ps ts W P IH]; intros qs S; inversion S as [|? [k vs] ? ss [S1 S2] S3]; subst; [constructor|].
    inversion Q as [|? ? [Q1 Q2] Q3]; subst. cbn [concat fst snd] in *. subst k. apply param_in_grammar; try easy. now apply IH.
  Qed.
  Lemma pvalues_quoted : forall vs t, rfc_pvalues vs t -> Forall (Forall quoted_char) vs.
  Proof.
    assert (H : forall v t, rfc_pvalue v t -> Forall quoted_char v).
    { intros v t [w F|w F]; [|exact F]. eapply Forall_impl; [|exact F]. now intros c [? _]. }
    intros vs t V. induction V as [v t V|v t vs ts V _ IH]; repeat constructor; eauto.
  Qed.
  Lemma says_within : forall p r l, property_says p r -> rfc_line r l -> within p.
  Proof.
    intros p [k qs v] l (E & S & ST & SN) (K & V & ts & P & _). cbn [rl_name rl_params rl_value] in *. subst k.
    split; [exact K|]. split; [|split].
    - clear - S P. revert ts P. induction S as [|[k v] [k' vs] ps qs [S1 [S2 S3]] _ IH]; intros ts P; [constructor|].
      inversion P as [|? ? t ? u K Q R]; subst. cbn [fst snd] in *. subst k'. constructor; [|eapply IH; exact R]. split; [exact K|].
      apply pvalues_quoted in Q. cbn [snd]. destruct (in_dec N.eq_dec 58%N v) as [I|I]; [rewrite S2 in Q by tauto; now inversion Q|].
      destruct (in_dec N.eq_dec 59%N v) as [J|J]; [rewrite S2 in Q by tauto; now inversion Q|].
      destruct (S3 I J) as (_ & x & r & -> & ->). inversion Q as [|? ? Q1 Q2]; subst. apply Forall_app. split; [exact Q1|].
      clear - Q2. induction Q2 as [|y r Y _ IH]; [constructor|]. cbn [map concat app]. constructor; [unfold quoted_char, control; lia|].
      apply Forall_app. now split.
    - intros T. eapply text_value; [apply ST, T|exact V].
    - intros T. rewrite <- (SN T). exact V.
  Qed.

  Lemma whole_fold : forall l, rfc_fold l (l ++ [CR; LF]).
  Proof. induction l as [|c l IH]; [constructor|]. cbn [app]. now constructor. Qed.
  Lemma folded_fold : forall l s, folded l s -> rfc_fold l s.
  Proof.
    intros l s (ps & last & -> & -> & _). induction ps as [|p ps IH]; cbn [concat join_fold app]; [apply whole_fold|].
    rewrite <- !app_assoc. induction p as [|c p IHp]; cbn [app]; [|now constructor].
    apply (rf_fold SP); [vm_compute; tauto|]. exact IH.
  Qed.
  Lemma tree_says_exists : forall t, exists r, tree_says t r.
  Proof.
    induction t as [k ps cs IH] using tree_deep.
    assert (P : exists rs, Forall2 property_says ps rs).
    { induction ps as [|p ps (rs & IHp)]; [now exists []|]. destruct (says_exists p) as [r R]. exists (r :: rs). now constructor. }
    assert (C : exists ds, Forall2 tree_says cs ds).
    { induction IH as [|c cs [d D] _ (ds & IHc)]; [now exists []|]. exists (d :: ds). now constructor. }
    destruct P as [rs P]. destruct C as [ds C]. exists (RNode k rs ds). now constructor.
  Qed.
  Lemma tree_in_grammar : forall t s r, written t s -> tree_says t r -> tree_within t -> rfc_document r s.
  Proof.
    induction t as [k ps cs IH] using tree_deep. intros s r W S T.
    inversion W as [? ? ts ? ss W1 W2]; subst. inversion S as [? ? rs ? ds S1 S2]; subst. inversion T as [? ? ? T1 T2 T3]; subst. clear W S T.
    assert (P : exists ls, Forall2 (fun r l => property_name (rl_name r) /\ rfc_line r l) rs ls /\ Forall2 rfc_fold ls ts).
    { clear - W1 S1 T2. revert rs S1. induction W1 as [|p t ps ts (l & L & F) _ IH]; intros rs S1; inversion S1 as [|? r ? rs' S2 S3]; subst.
      - exists []. split; constructor.
      - inversion T2 as [|? ? [T3 T4] T5]; subst. destruct (IH T5 rs' S3) as (ls & A & B). exists (l :: ls). split; constructor; try easy.
        + split; [|eapply line_in_grammar; eassumption]. destruct S2 as [-> _]. exact T4.
        + now apply folded_fold. }
    assert (C : exists lss us, Forall2 rfc_component ds lss /\ Forall2 rfc_fold (concat lss) us /\ concat us = concat ss).
    { clear - W2 S2 T3 IH. revert ds S2. induction W2 as [|c s cs ss W _ IHc]; intros ds S2; inversion S2 as [|? d ? ds' S3 S4]; subst.
      - exists [], []. repeat split; constructor.
      - inversion T3 as [|? ? T4 T5]; subst. inversion IH as [|? ? I1 I2]; subst. destruct (IHc I2 T5 ds' S4) as (lss & us & A & B & E).
        destruct (I1 s d W S3 T4) as (ls & vs & G & H & ->). exists (ls :: lss), (vs ++ us). split; [now constructor|]. split; [cbn [concat]; now apply Forall2_app|].
        rewrite concat_app, E. reflexivity. }
    destruct P as (ls & P1 & P2). destruct C as (lss & us & C1 & C2 & C3).
    exists ((lit "BEGIN:" ++ k) :: ls ++ concat lss ++ [lit "END:" ++ k]), (((lit "BEGIN:" ++ k) ++ [CR; LF]) :: ts ++ us ++ [(lit "END:" ++ k) ++ [CR; LF]]).
    split; [now constructor|]. split.
    - constructor; [apply whole_fold|]. apply Forall2_app; [exact P2|]. apply Forall2_app; [exact C2|]. constructor; [apply whole_fold|constructor].
    - cbn [concat]. rewrite !concat_app. cbn [concat]. rewrite C3, app_nil_r, <- !app_assoc. reflexivity.
  Qed.
  Lemma document_within : forall t r s, tree_says t r -> rfc_document r s -> tree_within t.
  Proof.
    intros t r s S (ls & ts & C & _ & _). clear ts s. revert r ls S C. induction t as [k ps cs IH] using tree_deep. intros r ls S C.
    inversion S as [? ? rs ? ds S1 S2]; subst. inversion C as [? ? qs ? lss K P D]; subst. constructor; [exact K| |].
    - clear - S1 P. revert qs P. induction S1 as [|p r ps rs H _ IH]; intros qs P; inversion P as [|? l ? qs' [N L] P']; subst; constructor; [|eapply IH; eassumption].
      split; [eapply says_within; eassumption|]. destruct H as [<- _]. exact N.
    - clear - S2 D IH. revert lss D. induction S2 as [|c d cs ds H _ IHc]; intros lss D; inversion D as [|? l ? lss' D1 D2]; subst; constructor; inversion IH; subst; eauto.
  Qed.

  Lemma name_lit : forall k, forallb (fun c => ((65 <=? c) && (c <=? 90))%N) k = true -> k <> [] -> k <> lit "BEGIN" -> k <> lit "END" -> property_name k.
  Proof.
    intros k F NE N1 N2. rewrite forallb_forall in F. assert (E : map ascii_upper k = k).
    { rewrite <- (map_id k) at 2. apply map_ext_in. intros c I. apply F in I. unfold ascii_upper. replace ((97 <=? c) && (c <=? 122))%N with false by lia. reflexivity. }
    unfold property_name. rewrite E. split; [|split; [exact N1|exact N2]]. split; [exact NE|]. rewrite Forall_forall. intros c I. apply F in I. unfold token_char. lia.
  Qed.
  Lemma stamp_within : forall d, property_within (utc_prop "DTSTAMP" d).
  Proof.
    intros d. assert (N : property_name (lit "DTSTAMP")) by (apply name_lit; [reflexivity|discriminate|discriminate|discriminate]).
    split; [|exact N]. split; [apply N|]. split; [constructor|]. split; [intros T; now vm_compute in T|]. intros _.
    change (p_val (utc_prop "DTSTAMP" d)) with (format_utc_date_time d). destruct d as [d t].
    unfold format_utc_date_time, format_naive_date_time, fmt_date, fmt_time, fmt_year. cbn [date_of time_of].
    assert (P : forall w n, Forall value_char (pad w n)).
    { intros w n. pose proof (pad_digits w n) as D. rewrite forallb_forall in D. rewrite Forall_forall. intros c I. apply D in I. unfold is_digit, in_range in I. unfold value_char, control. lia. }
    assert (L : forall c, value_char c -> Forall value_char [c]) by (intros; now repeat constructor).
    rewrite !Forall_app. repeat match goal with |- _ /\ _ => split end; try apply P; try (apply L; vm_compute; intuition discriminate).
    destruct ((0 <=? year d) && (year d <=? 9999))%Z; [apply P|]. constructor; [|apply P]. destruct (year d <? 0)%Z; vm_compute; intuition discriminate.
  Qed.
  Lemma uid_within : forall u, property_within (text_prop "UID" (fmt_uuid u)).
  Proof.
    intros u. assert (N : property_name (lit "UID")) by (apply name_lit; [reflexivity|discriminate|discriminate|discriminate]).
    split; [|exact N]. split; [apply N|]. split; [constructor|]. cbn [text_prop p_val]. destruct (uuid_spec u) as [_ F].
    assert (V : Forall value_char (fmt_uuid u)).
    { eapply Forall_impl; [|exact F]. intros c H. unfold value_char, control. unfold plain_char in H. lia. }
    split; [intros _|now intros _]. eapply Forall_impl; [|exact V]. now left.
  Qed.

  Lemma arranged_within : forall e t k i, well_made i -> arranged e k i t -> (tree_within t <-> inner_within k i).
  Proof.
    intros e. induction t as [k ps cs IH] using tree_deep. intros kind i W A.
    inversion A as [k' i' stamp qs u gs cs' A1 A2 A3 A4 A5 A6 A7]; subst. inversion W as [? B D]; subst. split.
    - intros T. inversion T as [? ? ? T1 T2 T3]; subst. rewrite !Forall_app in T2. destruct T2 as (_ & T4 & _ & T5). constructor; [exact T1| | | ].
      + intros key p G. rewrite Forall_forall in T4. apply T4, A3. pose proof (b_keys _ B) as K. rewrite Forall_forall in K.
        specialize (K _ (StrFacts.map_get_in _ _ _ _ G)). cbn beta iota in K. now rewrite K.
      + intros key g G. rewrite Forall_forall in T5 |- *. intros p I. apply T5, in_flat_map. exists (key, g). split; [now apply A6|exact I].
      + clear - A7 IH T3 D. induction A7 as [|o t os cs H _ IHc]; [constructor|]. inversion IH; subst. inversion T3; subst. inversion D; subst. constructor; [|auto].
        eapply H2; eassumption.
    - intros T. inversion T as [? ? T1 T2 T3 T4]; subst. constructor; [exact T1| |].
      + rewrite !Forall_app. split; [|split; [|split]].
        * destruct (map_get (lit "DTSTAMP") (i_props i)); [subst; constructor|]. destruct A1 as [m ->]. constructor; [apply stamp_within|constructor].
        * rewrite Forall_forall. intros p I. apply A3 in I. eauto.
        * destruct (map_get (lit "UID") (i_props i)); [subst; constructor|]. destruct A4 as [m ->]. constructor; [apply uid_within|constructor].
        * rewrite Forall_forall. intros p I. apply in_flat_map in I as ([key g] & I & J). apply A6, T3 in I. rewrite Forall_forall in I. now apply I.
      + clear - A7 IH T4 D. induction A7 as [|o t os cs H _ IHc]; [constructor|]. inversion IH; subst. inversion T4; subst. inversion D; subst. constructor; [|auto].
        eapply H2; eassumption.
  Qed.
End WithUnicode.
