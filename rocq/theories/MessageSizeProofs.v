(** Error messages are not much longer than the text. *)
From Verif Require Import Str StrFacts Spec Fold ValueTypes Property Chrono DateTime Component Calendar Nom Parser SpecDoc SpecItems SpecGrammar SpecError SpecStack ErrorText
  ParserProofs TotalProofs ReadProofs AcceptProofs RejectProofs ItemProofs DocProofs GrammarProofs MessageProofs StackProofs FoldProofs UnfoldProofs SizeProofs ReadSizeProofs.
From Coq Require Import ZifyBool ZifyNat ZifyN.

(** ** Lines *)
(** The octets since the last line feed, up to the first line feed, and behind it. *)
Definition last_oct (p : str) : nat := fold_left (fun n c => if (c =? LF)%N then 0 else n + octets [c]) p 0.
Fixpoint first_oct (s : str) : nat := match s with [] => 0 | c :: r => if (c =? LF)%N then 0 else octets [c] + first_oct r end.
Fixpoint rest_oct (s : str) : nat := match s with [] => 0 | c :: r => if (c =? LF)%N then octets r else rest_oct r end.
Lemma last_go : forall p n, fold_left (fun n c => if (c =? LF)%N then 0 else n + octets [c]) p n <= n + octets p.
Proof.
  induction p as [|c p IH]; intros n; cbn [fold_left]; [lia|]. rewrite (octets_cons c p). destruct (c =? LF)%N; [specialize (IH 0)|specialize (IH (n + octets [c]))]; lia.
Qed.
Lemma last_app : forall p a, last_oct (p ++ a) <= last_oct p + octets a.
Proof. intros p a. unfold last_oct. rewrite fold_left_app. apply last_go. Qed.
Lemma last_lf : forall a p b, last_oct (p ++ LF :: b ++ a) <= octets b + octets a.
Proof.
  intros a p b. unfold last_oct. rewrite fold_left_app. cbn [fold_left]. change (LF =? LF)%N with true. cbv iota. pose proof (last_go (b ++ a) 0) as H. rewrite octets_app in H. exact H.
Qed.
Lemma last_ends : forall p, last_oct (p ++ [LF]) = 0.
Proof. intros p. unfold last_oct. now rewrite fold_left_app. Qed.
Lemma last_here : forall p h, (p = [] \/ exists x, p = x ++ [LF]) -> ~ In LF h -> last_oct (p ++ h) = octets h.
Proof.
  intros p h P H. assert (G : forall n, fold_left (fun n c => if (c =? LF)%N then 0 else n + octets [c]) h n = n + octets h).
  { clear P. induction h as [|c h IH]; intros n; cbn [fold_left]; [cbn; lia|]. rewrite (octets_cons c h). destruct (N.eqb_spec c LF) as [->|]; [destruct H; now left|].
    rewrite IH; [lia|]. intros I. apply H. now right. }
  unfold last_oct. rewrite fold_left_app, G. change (last_oct p + octets h = octets h). destruct P as [->|[x ->]]; [easy|]. now rewrite last_ends.
Qed.
Lemma first_rest : forall s, first_oct s + rest_oct s <= octets s.
Proof. induction s as [|c s IH]; [easy|]. rewrite (octets_cons c s). cbn [first_oct rest_oct]. destruct (c =? LF)%N; lia. Qed.
Lemma rest_app : forall a s, rest_oct s <= rest_oct (a ++ s).
Proof.
  induction a as [|c a IH]; intros s; [easy|]. cbn [app rest_oct]. destruct (c =? LF)%N; [|apply IH]. rewrite octets_app. pose proof (first_rest s). lia.
Qed.
Lemma rest_lf : forall a s, octets s <= rest_oct (a ++ LF :: s).
Proof. intros a s. etransitivity; [|apply rest_app]. cbn [rest_oct]. now change (LF =? LF)%N with true. Qed.
Lemma first_line : forall h s l, ~ In LF h -> line_head (h ++ s) l -> octets l <= octets h + first_oct s.
Proof.
  intros h s l H [N E].
  assert (G : forall s l r, ~ In LF l -> s = l ++ r -> octets l <= first_oct s).
  { clear. intros s l. revert s. induction l as [|c l IH]; intros s r N ->; [cbn; lia|]. cbn [app first_oct]. rewrite (octets_cons c l).
    destruct (N.eqb_spec c LF) as [->|]; [destruct N; now left|]. specialize (IH (l ++ r) r (fun I => N (or_intror I)) eq_refl). lia. }
  assert (exists r, h ++ s = l ++ r) as [r R].
  { destruct E as [E|[r E]]; [exists []; now rewrite app_nil_r|now exists (LF :: r)]. }
  specialize (G (h ++ s) l r N R). etransitivity; [exact G|]. clear - H. induction h as [|c h IH]; [cbn; lia|]. cbn [app first_oct]. rewrite (octets_cons c h).
  destruct (c =? LF)%N; [lia|]. specialize (IH (fun I => H (or_intror I))). lia.
Qed.

(** ** Numbers and entries *)
Lemma number_short : forall s n d, number s n -> 1 <= d -> n < 10 ^ d -> length s <= d /\ octets s = length s.
Proof.
  intros s n d (D & NE & Z & W) P L. fold (val s) in W. split.
  - destruct (N.eq_dec (hd 0%N s) 48) as [Q|Q]; [rewrite (Z Q); cbn; lia|].
    assert (G : 10 ^ (length s - 1) <= val s).
    { clear Z W L. induction s as [|c s IH] using rev_ind; [easy|]. rewrite val_last, app_length. cbn [length]. apply Forall_app in D as [D1 D2]. inversion D2; subst.
      destruct s as [|b s]; [cbn in *; change (val []) with 0; lia|]. specialize (IH D1 ltac:(easy) Q). replace (length (b :: s) + 1 - 1) with (S (length (b :: s) - 1)) by (cbn [length]; lia).
      cbn [Nat.pow]. lia. }
    destruct (Nat.le_gt_cases (length s) d) as [K|K]; [easy|]. assert (10 ^ d <= 10 ^ (length s - 1)) by (apply Nat.pow_le_mono_r; lia). lia.
  - clear - D. induction D as [|c s H D IH]; [easy|]. rewrite (octets_cons c s). cbn [length]. rewrite IH. assert (octets [c] = 1); [|lia].
    rewrite octets_blen. cbn [blen]. unfold utf8_len. replace (c <? 128)%N with true by lia. lia.
Qed.

(** The length of the line of [y]. *)
Definition line_oct (t y : str) : nat := last_oct (before t y) + first_oct y.
Lemma before_app : forall p y, before (p ++ y) y = p.
Proof.
  intros p y. unfold before. rewrite app_length. replace (length p + length y - length y) with (length p) by lia. rewrite firstn_app, Nat.sub_diag, firstn_all. cbn. apply app_nil_r.
Qed.
Lemma before_of : forall t p y, t = p ++ y -> before t y = p.
Proof. intros t p y ->. apply before_app. Qed.
Definition total (t : str) (ys : list str) : nat := fold_right (fun y n => line_oct t y + n) 0 ys.
Lemma total_last : forall t ys y, total t (ys ++ [y]) = total t ys + line_oct t y.
Proof. intros t ys y. unfold total. rewrite fold_right_app. cbn [fold_right]. induction ys as [|z ys IH]; cbn [fold_right]; lia. Qed.
Lemma total_begins : forall t ys, Forall begins ys -> 6 * length ys <= total t ys.
Proof.
  intros t ys F. induction F as [|y ys (k & r & K & ->) F IH]; [easy|]. cbn [length]. change (total t ((k ++ r) :: ys)) with (line_oct t (k ++ r) + total t ys).
  assert (6 <= first_oct (k ++ r)); [|unfold line_oct; lia].
  do 6 (destruct k as [|? k]; [discriminate K|]). destruct k; [|discriminate K]. cbn [map] in K. injection K as K0 K1 K2 K3 K4 K5. clear - K0 K1 K2 K3 K4 K5.
  assert (G : forall c s n, (lower_ascii c <> 10)%N -> n <= first_oct s -> S n <= first_oct (c :: s)).
  { intros c s m H L. cbn [first_oct]. destruct (N.eqb_spec c LF) as [->|]; [now destruct H|]. assert (1 <= octets [c]); [|lia]. rewrite octets_blen. cbn [blen].
    pose proof (utf8_len_bounds c). lia. }
  cbn [app]. repeat (apply G; [lia|]). lia.
Qed.

(** ** The places that are reported *)
Section Stack.
  Context {U : Unicode}.
  Lemma breaks_ends : forall b, breaks b -> b = [] \/ exists x, b = x ++ [LF].
  Proof.
    intros b B. induction B as [|b s B Bs IH]; [now left|right]. destruct IH as [->|[x ->]].
    - rewrite app_nil_r. destruct B as [->| ->]; [now exists [CR]|now exists []].
    - exists (b ++ x). apply app_assoc.
  Qed.
  Lemma nothing_fails : forall n e, ~ body_fails_with n [] e.
  Proof.
    intros n e H. inversion H as [? ke i K NP E1 E2|? i e' C|? i r NE NB R|? i c j e' C B|? i p j e' NE NB It NJ B]; subst.
    - apply app_eq_nil in E2 as [-> _]. discriminate K.
    - inversion C as [kb ? ? ? ? K ? ? ? ? E1]. apply app_eq_nil in E1 as [-> _]. discriminate K.
    - destruct R as (w & x & _ & E & D). symmetry in E. apply app_eq_nil in E as [_ ->]. now destruct D.
    - inversion C as [kb ? ? ? ? ? ? K ? ? ? ? E1]. apply app_eq_nil in E1 as [-> _]. discriminate K.
    - apply item_suffix in It as [[a E] _]. symmetry in E. now apply app_eq_nil in E as [_ ->].
  Qed.
  Lemma item_crosses : forall i p j, name_ends i -> item_reads i p j -> j <> i -> exists a, i = a ++ j /\ (In LF a \/ j = []).
  Proof.
    intros i p j NE (r & (_ & rest & A & D) & B) NJ.
    assert (LB : forall x y, after_breaks x y -> exists b, x = b ++ y /\ (In LF b \/ b = [])).
    { intros x y (b & Bb & -> & _). exists b. split; [easy|]. destruct (breaks_ends b Bb) as [->|[z ->]]; [now right|left]. apply in_or_app. right. now left. }
    destruct (LB _ _ B) as (b & Eb & Db). destruct D as [L|[_ (k & -> & K & _ & _)]].
    - destruct L as (w & k & qs & t & v & E & _ & _ & _ & C & _).
      assert (C' : (exists c, rest = c ++ r /\ In LF c) \/ rest = []).
      { destruct A as [(c & Bc & ->)|[[N1 N2] ->]].
        - left. exists c. split; [easy|]. destruct Bc as [->| ->]; cbn; auto.
        - destruct C as [[C _]|[[C _]|[C _]]]; [easy|easy|now right]. }
      destruct C' as [(c & Ec & Ic)|Er].
      + exists ((w ++ k ++ t ++ COLON :: v) ++ c ++ b). subst rest r. split; [rewrite E, <- !app_assoc; cbn [app]; now rewrite <- ?app_assoc|].
        left. apply in_or_app. right. apply in_or_app. now left.
      + subst rest. assert (r = []) as -> by (destruct A as [(c & _ & E2)|[_ E2]]; [symmetry in E2; now apply app_eq_nil in E2|easy]).
        symmetry in Eb. apply app_eq_nil in Eb as [-> ->]. exists i. split; [symmetry; apply app_nil_r|now right].
    - destruct k as [|c k]; [|exfalso; apply (NE c (k ++ rest) eq_refl); now inversion K]. cbn [app] in *.
      destruct A as [(c & Bc & ->)|[_ ->]].
      + exists (c ++ b). subst r. split; [apply app_assoc|]. left. apply in_or_app. left. destruct Bc as [->| ->]; cbn; auto.
      + exists b. split; [easy|]. destruct Db as [Db| ->]; [now left|now destruct NJ].
  Qed.
  Lemma begins_key : forall i, begins i -> ~ name_ends i.
  Proof.
    intros i (k & r & K & ->) NE. destruct k as [|c k]; [discriminate K|]. apply (NE c (k ++ r) eq_refl). right. cbn [map] in K. injection K as K _.
    unfold lower_ascii, is_upper, in_range in K. unfold is_alnum, is_digit, is_upper, is_lower_ascii, in_range. destruct (65 <=? c)%N eqn:?, (c <=? 90)%N eqn:?; cbn [andb] in K; replace (c <? 128)%N with true by lia; cbn [andb orb]; lia.
  Qed.

  Definition stack_of (t : str) (e core : verror) (ys : list str) : Prop :=
    e = core ++ map (fun y => (y, VContext "component")) ys /\ length core <= 4
    /\ Forall (fun l => suffix (fst l) t /\ octets (lit (shown_kind (snd l))) <= 31) core /\ Forall (fun y => suffix y t) ys /\ Forall begins ys.
  Lemma stack_placed : forall t,
    (forall i e, comp_fails_with i e -> suffix i t -> begins i /\ exists core ys, stack_of t e core ys /\ total t ys <= rest_oct i) /\
    (forall n i e, body_fails_with n i e -> suffix i t -> exists core ys, stack_of t e core ys
       /\ total t ys <= last_oct (before t i) + octets i /\ (name_ends i -> total t ys <= rest_oct i)).
  Proof.
    intros t. apply (fails_with_mutind U (fun i e => suffix i t -> begins i /\ exists core ys, stack_of t e core ys /\ total t ys <= rest_oct i)
      (fun n i e => suffix i t -> exists core ys, stack_of t e core ys
         /\ total t ys <= last_oct (before t i) + octets i /\ (name_ends i -> total t ys <= rest_oct i))).
    - intros kb n i j e K N M A B IH [p Ep]. split; [now exists kb, (n ++ i)|]. destruct A as (b & Bb & -> & _).
      destruct IH as (core & ys & St & T1 & T2); [exists (p ++ kb ++ n ++ b); now rewrite Ep, <- !app_assoc|]. exists core, ys. split; [easy|].
      destruct (breaks_ends b Bb) as [->|[x ->]].
      + cbn [app] in *. etransitivity; [now apply T2|]. rewrite app_assoc. apply rest_app.
      + rewrite (before_of t (p ++ kb ++ n ++ x ++ [LF]) j), !app_assoc, last_ends in T1 by (rewrite Ep, <- !app_assoc; easy).
        etransitivity; [exact T1|]. rewrite <- !app_assoc. cbn [app]. rewrite !app_assoc. apply rest_lf.
    - intros n ke i K _ [p Ep]. assert (S1 : suffix i t) by (exists (p ++ ke); now rewrite Ep, <- app_assoc). exists [(i, VNom KTag); (i, VContext "mismatching end")], [].
      split; [|split; [cbn; lia|intros _; cbn; lia]]. split; [easy|]. split; [cbn; lia|]. split; [|now split]. repeat (apply Forall_cons; [split; [easy|apply Nat.leb_le; reflexivity]|]). constructor.
    - intros n i e _ IH Si. destruct (IH Si) as (Bi & core & ys & (E & L & F1 & F2 & F3) & T). exists core, (ys ++ [i]). split; [|split].
      + split; [now rewrite map_app, E, app_assoc|]. split; [easy|]. split; [easy|]. split; apply Forall_app; split; auto.
      + rewrite total_last. unfold line_oct. pose proof (first_rest i). lia.
      + intros NE. now destruct (begins_key i Bi).
    - intros n i r _ _ (w & x & _ & Ei & _) Si. assert (Sr : suffix r t) by (eapply suffix_trans; [now exists w|rewrite <- Ei; exact Si]).
      exists (property_stack i r ++ [(i, VContext "component")]), []. split; [|split; [cbn; lia|intros _; cbn; lia]].
      split; [now rewrite app_nil_r|]. split; [cbn; lia|]. split; [|now split]. unfold property_stack. cbn [app]. repeat (apply Forall_cons; [split; [easy|apply Nat.leb_le; reflexivity]|]). constructor.
    - intros n i c j e C B IH Si. destruct reads_shrink as [RS _]. destruct (RS _ _ _ C) as (Bi & [a Ea] & _).
      assert (Sj : suffix j t) by (eapply suffix_trans; [|exact Si]; now exists a). destruct (IH Sj) as (core & ys & St & T1 & _). exists core, ys. split; [easy|].
      split; [|intros NE; now destruct (begins_key i Bi)]. destruct Si as [p Ep]. subst i. rewrite (before_of t p (a ++ j) Ep), octets_app. rewrite app_assoc in Ep. rewrite (before_of t (p ++ a) j Ep) in T1.
      pose proof (last_app p a). lia.
    - intros n i p j e _ _ It NJ B IH Si. destruct (item_suffix _ _ _ It) as [[a Ea] _].
      assert (Sj : suffix j t) by (eapply suffix_trans; [|exact Si]; now exists a). destruct (IH Sj) as (core & ys & St & T1 & _). exists core, ys. split; [easy|]. destruct Si as [q Eq]. split.
      + subst i. rewrite (before_of t q (a ++ j) Eq), octets_app. rewrite app_assoc in Eq. rewrite (before_of t (q ++ a) j Eq) in T1. pose proof (last_app q a). lia.
      + intros NE. destruct (item_crosses _ _ _ NE It NJ) as (a' & Ea' & [I| ->]); [|now destruct (nothing_fails n e)]. apply in_split in I as (a1 & a2 & ->).
        clear Ea a. subst i. rewrite (before_of t (q ++ a1 ++ LF :: a2) j) in T1 by (rewrite Eq, <- !app_assoc; easy).
        pose proof (last_lf [] (q ++ a1) a2) as L. rewrite app_nil_r, <- app_assoc in L. change (octets []) with 0 in L.
        rewrite <- app_assoc. cbn [app]. pose proof (rest_lf a1 (a2 ++ j)) as R. rewrite octets_app in R. lia.
  Qed.
End Stack.

(** ** The size of a message *)
Lemma octets_spaces : forall n, octets (repeat SP n) = n.
Proof. induction n as [|n IH]; [easy|]. cbn [repeat]. rewrite (octets_cons SP (repeat SP n)), IH. reflexivity. Qed.
Lemma lines_le : forall s, count_occ N.eq_dec s LF <= octets s.
Proof.
  induction s as [|c s IH]; [easy|]. cbn [count_occ]. rewrite (octets_cons c s). assert (1 <= octets [c]) by (rewrite octets_blen; cbn [blen]; pose proof (utf8_len_bounds c); lia).
  destruct (N.eq_dec c LF); lia.
Qed.
Lemma position_size : forall t sub row col l, position octets t sub row col l ->
  octets l + (col - 1) <= 2 * line_oct t sub /\ octets l + (col - 1) <= 2 * octets t /\ row <= 1 + octets t /\ 1 <= row.
Proof.
  intros t sub row col l (above & here & full & E & A & H & -> & -> & L & (w & W & _) & _).
  rewrite app_assoc in E. unfold line_oct. rewrite (before_of _ _ _ E), (last_here _ _ A H). rewrite <- app_assoc in E.
  pose proof (first_line _ _ _ H L) as F. pose proof (first_rest sub). pose proof (lines_le above). subst full. rewrite octets_app in F.
  assert (octets t = octets above + (octets here + octets sub)) by (now rewrite E, !octets_app). lia.
Qed.
Lemma octets_pos : forall s, s <> [] -> 1 <= octets s.
Proof. intros [|c s] H; [easy|]. rewrite (octets_cons c s), octets_blen. cbn [blen]. pose proof (utf8_len_bounds c). lia. Qed.
Lemma entries_split : forall t a k b text, entries octets t k (a ++ b) text ->
  exists ta tb, text = ta ++ tb /\ entries octets t k a ta /\ entries octets t (k + length a) b tb.
Proof.
  intros t. induction a as [|[sub w] a IH]; intros k b text H.
  - exists [], text. rewrite Nat.add_0_r. repeat split; [constructor|exact H].
  - cbn [app] in H. inversion H; subst. match goal with X : entries _ _ (S k) _ _ |- _ => apply IH in X as (ta & tb & -> & H1 & H2) end.
    eexists _, tb. split; [|split; [econstructor; eassumption|cbn [length]; now rewrite Nat.add_succ_r]]. rewrite <- !app_assoc. cbn [app]. rewrite <- ?app_assoc. reflexivity.
Qed.
Lemma entry_octets : forall nk nrow kd l n text,
  octets (nk ++ lit ": at line " ++ nrow ++ lit ", in " ++ kd ++ lit ":" ++ [LF] ++ l ++ [LF] ++ repeat SP n ++ lit "^" ++ [LF; LF] ++ text)
  = octets nk + octets nrow + octets kd + octets l + n + 21 + octets text.
Proof.
  intros. rewrite !octets_app, octets_spaces. change (octets (lit ": at line ")) with 10. change (octets (lit ", in ")) with 5. change (octets (lit ":")) with 1.
  change (octets (lit "^")) with 1. change (octets [LF]) with 1. change (octets [LF; LF]) with 2. lia.
Qed.
Lemma core_size : forall t d core k text, entries octets t k core text -> 1 <= d -> octets t + 1 < 10 ^ d -> k + length core <= 10 ^ d ->
  Forall (fun l => octets (lit (shown_kind (snd l))) <= 31) core -> octets text <= length core * (52 + 2 * d + 2 * octets t).
Proof.
  intros t d core k text H D T. induction H as [k|k sub w e row col l nk nrow text P Nk Nr H IH]; intros K F; [easy|].
  inversion F as [|? ? F1 F2]; subst. cbn [fst snd] in F1. cbn [length] in *. destruct (position_size _ _ _ _ _ P) as (_ & P1 & P2 & P3).
  destruct (number_short nk k d Nk D ltac:(lia)) as [L1 O1]. destruct (number_short nrow row d Nr D ltac:(lia)) as [L2 O2].
  rewrite entry_octets. specialize (IH ltac:(lia) F2). lia.
Qed.
Lemma around_size : forall t d ys k text, entries octets t k (map (fun y => (y, VContext "component")) ys) text -> 1 <= d -> octets t + 1 < 10 ^ d -> k + length ys <= 10 ^ d ->
  octets text <= length ys * (30 + 2 * d) + 2 * total t ys.
Proof.
  intros t d. induction ys as [|y ys IH]; intros k text H D T K; cbn [map] in H; inversion H; subst; [easy|]. cbn [length] in *.
  match goal with X : position _ _ _ _ _ _, Y : number nk k, Z : number nrow row |- _ => destruct (position_size _ _ _ _ _ X) as (P0 & P1 & P2 & P3);
    destruct (number_short nk k d Y D ltac:(lia)) as [L1 O1]; destruct (number_short nrow row d Z D ltac:(lia)) as [L2 O2] end.
  rewrite entry_octets. change (octets (lit (shown_kind (VContext "component")))) with 9. change (total t (y :: ys)) with (line_oct t y + total t ys).
  match goal with X : entries _ _ (S k) _ _ |- _ => specialize (IH _ _ X D T ltac:(lia)) end. lia.
Qed.
Lemma empty_size : forall d core k text, entries_empty k core text -> 1 <= d -> k + length core <= 10 ^ d ->
  Forall (fun l => octets (lit (shown_kind (snd l))) <= 31) core -> octets text <= length core * (55 + d).
Proof.
  intros d core k text H D. induction H as [k|k sub w e nk text Nk H IH]; intros K F; [easy|].
  inversion F as [|? ? F1 F2]; subst. cbn [fst snd] in F1. cbn [length] in *. destruct (number_short nk k d Nk D ltac:(lia)) as [L1 O1].
  rewrite !octets_app. change (octets (lit ": in ")) with 5. change (octets (lit ", got empty input")) with 17. change (octets [LF; LF]) with 2. specialize (IH ltac:(lia) F2). lia.
Qed.
Lemma message_size : forall t e core ys m d, 1 <= d -> octets t + 5 < 10 ^ d -> message_for octets t e m ->
  e = core ++ map (fun y => (y, VContext "component")) ys -> length core <= 4 -> Forall (fun l => octets (lit (shown_kind (snd l))) <= 31) core ->
  6 * length ys <= total t ys -> total t ys <= octets t -> 3 * octets m <= (45 + d) * octets t + 690 + 24 * d.
Proof.
  intros t e core ys m d D T (x & -> & M1 & M2) -> L F Y1 Y2. rewrite octets_app. change (octets (lit "error: ")) with 7.
  destruct t as [|c t'] eqn:Et.
  - change (octets []) with 0 in *. assert (ys = []) as -> by (destruct ys; [easy|cbn [length] in *; lia]). cbn [map] in M2. rewrite app_nil_r in M2.
    pose proof (empty_size d core 0 x (M2 eq_refl) D ltac:(lia) F) as Z. assert (length core * (55 + d) <= 4 * (55 + d)) by (apply Nat.mul_le_mono_r; lia). lia.
  - rewrite <- Et in *. assert (NE : t <> []) by now rewrite Et. apply entries_split in M1 as (ta & tb & -> & E1 & E2); [|easy]. cbn [Nat.add] in E2.
    apply (core_size t d) in E1; [|lia|lia|lia|easy]. apply (around_size t d) in E2; [|lia|lia|lia]. rewrite octets_app.
    assert (length core * (52 + 2 * d + 2 * octets t) <= 4 * (52 + 2 * d + 2 * octets t)) by (apply Nat.mul_le_mono_r; lia).
    assert (6 * length ys * d <= octets t * d) by (apply Nat.mul_le_mono_r; lia). nia.
Qed.
Section Size.
  Context {U : Unicode}.
  Notation bound n m := (forall d, 1 <= d -> n + 5 < 10 ^ d -> 3 * octets m <= (45 + d) * n + 690 + 24 * d).
  Lemma fails_size : forall i e m, text_fails_with i e -> message_for octets i e m -> bound (octets i) m.
  Proof.
    intros i e m (j & (b & _ & E & _) & H) M d D T. assert (Sj : suffix j i) by now exists b.
    destruct (stack_placed i) as [P _]. destruct (P j e H Sj) as (_ & core & ys & (E2 & L & F1 & _ & F3) & Y).
    apply (message_size i e core ys); try easy.
    - revert F1. apply Forall_impl. now intros l [_ X].
    - now apply total_begins.
    - etransitivity; [exact Y|]. rewrite E, octets_app. pose proof (first_rest j). lia.
  Qed.
  Lemma short_size : forall i e m, length e <= 4 -> Forall (fun l => octets (lit (shown_kind (snd l))) <= 31) e -> message_for octets i e m -> bound (octets i) m.
  Proof.
    intros i e m L F M d D T. apply (message_size i e e []); try easy.
    - symmetry. apply app_nil_r.
    - cbn. lia.
  Qed.
  Lemma none_size : forall i e m, text_none_with i e -> message_for octets i e m -> bound (octets i) m.
  Proof.
    intros i e m (j & _ & D) M. apply (short_size i e m); [| |exact M]; destruct D as [[_ ->]|(x & _ & ->)]; cbn [length]; try lia;
      (constructor; [apply Nat.leb_le; reflexivity|constructor]).
  Qed.
  Lemma reserved_size : forall i e m, (exists r, reserved_at i r /\ e = property_stack i r) -> message_for octets i e m -> bound (octets i) m.
  Proof.
    intros i e m (r & _ & ->) M. apply (short_size i (property_stack i r) m); [cbn [length property_stack]; lia| |exact M]. unfold property_stack.
    repeat (apply Forall_cons; [apply Nat.leb_le; reflexivity|]). constructor.
  Qed.
  Lemma param_size : forall i e m, (~ has_prefix [SEMI] i /\ e = [(i, VNom KTag); (i, VNom KAlt)]) -> message_for octets i e m -> bound (octets i) m.
  Proof.
    intros i e m (_ & ->) M. apply (short_size i [(i, VNom KTag); (i, VNom KAlt)] m); [cbn [length]; lia| |exact M]. repeat (apply Forall_cons; [apply Nat.leb_le; reflexivity|]). constructor.
  Qed.
  (** [octets (unfold i)] is the bound for what is read after unfolding. *)
  Lemma unfolded_size : forall i m, bound (octets (unfold i)) m -> bound (octets i) m.
  Proof.
    intros i m B d D T. pose proof (unfolds_le i (unfold i) (unfold_unfolds i)) as L. specialize (B d D ltac:(lia)).
    etransitivity; [exact B|]. assert ((45 + d) * octets (unfold i) <= (45 + d) * octets i) by (apply Nat.mul_le_mono_l; lia). lia.
  Qed.
  Theorem messages_size : forall i m,
    read_calendar_s i = Err m \/ read_components_s i = Err m \/ read_component_s i = Err m \/ read_property_s i = Err m \/ read_parameter_s i = Err m
    \/ calendar_from_str_s i = Err m \/ cc_from_str_s i = Err m \/ property_from_str_s i = Err m ->
    bound (octets i) m.
  Proof.
    intros i m H. destruct (stack_messages i m) as (M1 & M2 & M3 & M4 & M5 & M6 & M7 & M8).
    destruct H as [H|[H|[H|[H|[H|[H|[H|H]]]]]]].
    - apply M1 in H as (e & D & M). eapply fails_size; eassumption.
    - apply M2 in H as (e & D & M). eapply fails_size; eassumption.
    - apply M3 in H as (e & [D|D] & M); [eapply fails_size|eapply none_size]; eassumption.
    - apply M4 in H as (e & D & M). eapply reserved_size; eassumption.
    - apply M5 in H as (e & D & M). eapply param_size; eassumption.
    - apply M6 in H as (e & D & M). apply unfolded_size. eapply fails_size; eassumption.
    - apply M7 in H as (e & [D|D] & M); apply unfolded_size; [eapply fails_size|eapply none_size]; eassumption.
    - apply M8 in H as (e & D & M). eapply reserved_size; eassumption.
  Qed.

  (** ** Messages that are long *)
  Lemma entries_lower : forall t e k text, entries octets t k e text -> fold_right (fun l n => 23 + octets (lit (shown_kind (snd l))) + n) 0 e <= octets text.
  Proof.
    intros t e k text H. induction H as [k|k sub w e row col l nk nrow text P Nk Nr H IH]; [easy|]. cbn [fold_right snd]. rewrite entry_octets.
    destruct Nk as (_ & N1 & _), Nr as (_ & N2 & _). apply octets_pos in N1, N2. lia.
  Qed.
  Fixpoint nest (k : nat) : str := match k with 0 => lit "END:B" ++ [LF] | S k => lit "BEGIN:A" ++ [LF] ++ nest k end.
  Lemma nest_octets : forall k, octets (nest k) = 8 * k + 6.
  Proof.
    induction k as [|k IH]; [easy|]. cbn [nest]. rewrite !octets_app, IH. change (octets (lit "BEGIN:A")) with 7. change (octets [LF]) with 1. lia.
  Qed.
  Lemma nest_break : forall k, no_break_next (nest k).
  Proof. intros k. apply no_break_spec. destruct k; apply no_break_head; discriminate. Qed.
  Lemma nest_fails : forall k, exists e, comp_fails_with (nest (S k)) e /\ fold_right (fun l n => 23 + octets (lit (shown_kind (snd l))) + n) 0 e = 64 + 32 * k.
  Proof.
    assert (C : forall k e, body_fails_with (lit "A") (nest k) e -> comp_fails_with (nest (S k)) e).
    { intros k e B. change (nest (S k)) with (lit "BEGIN:" ++ lit "A" ++ [LF] ++ nest k). apply cfw_comp with (j := nest k); [reflexivity| | | |exact B].
      - constructor; [now right|constructor].
      - intros c r X. injection X as <- _. intros [I|I]; [cbn in I; intuition discriminate|discriminate I].
      - exists [LF]. split; [|split; [easy|apply nest_break]]. apply (bk_cons [LF] []); [now right|constructor]. }
    induction k as [|k (e & H & S)].
    - eexists. split; [apply C; apply (bfw_end (lit "A") (lit "END:") (lit "B" ++ [LF])); [reflexivity|intros [r X]; discriminate X]|]. reflexivity.
    - exists (e ++ [(nest (1 + k), VContext "component")]). split; [apply C; now apply bfw_comp|]. rewrite fold_right_app. cbn [fold_right snd].
      change (octets (lit (shown_kind (VContext "component")))) with 9.
      assert (G : forall n, fold_right (fun (l : str * vkind) n => 23 + octets (lit (shown_kind (snd l))) + n) n e = n + fold_right (fun (l : str * vkind) n => 23 + octets (lit (shown_kind (snd l))) + n) 0 e).
      { clear. intros n. induction e as [|x e IH]; cbn [fold_right]; lia. }
      rewrite G, S. lia.
  Qed.
  Theorem nest_long : forall k, exists m, read_calendar_s (nest (S k)) = Err m /\ 4 * octets (nest (S k)) <= octets m.
  Proof.
    intros k. destruct (nest_fails k) as (e & H & S). assert (T : text_fails_with (nest (1 + k)) e).
    { exists (nest (1 + k)). split; [|exact H]. exists []. split; [constructor|]. split; [easy|apply nest_break]. }
    destruct (stack_placed (nest (1 + k))) as [P _]. destruct (P _ e H (suffix_refl _)) as (_ & core & ys & (E2 & _ & F1 & F2 & _) & _).
    assert (F : Forall (fun l => suffix (fst l) (nest (1 + k))) e).
    { subst e. apply Forall_app. split; [revert F1; apply Forall_impl; now intros l [X _]|]. rewrite Forall_map. cbn [fst]. exact F2. }
    pose proof (convert_error_spec _ _ F) as M. destruct (stack_messages (nest (1 + k)) (message (nest (1 + k)) e)) as (M1 & _).
    exists (message (nest (1 + k)) e). split; [apply M1; now exists e|]. destruct M as (x & -> & M2 & _). rewrite octets_app, nest_octets. change (octets (lit "error: ")) with 7.
    specialize (M2 ltac:(easy)). apply entries_lower in M2. lia.
  Qed.
End Size.
