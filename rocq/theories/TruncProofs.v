(** Texts that were cut off. *)
From Verif Require Import Str StrFacts Spec ValueTypes Property Chrono DateTime Component Calendar Nom Parser SpecDoc SpecItems SpecGrammar SpecCut
  ParserProofs TotalProofs ReadProofs AcceptProofs RejectProofs ItemProofs DocProofs GrammarProofs.
From Coq Require Import ZifyBool ZifyNat ZifyN.

Section Cut.
  Context {U : Unicode}.

  (** ** One reading *)

  Lemma breaks_one : forall a r r', after_breaks a r -> after_breaks a r' -> r = r'.
  Proof.
    intros a r r' (b & B & -> & N) H. induction B as [|x s X B IH].
    - cbn [app] in H. apply no_break_spec in N. symmetry. now apply no_breaks_self.
    - destruct H as (b' & B' & E & N'). destruct B' as [|x' s' X' B'].
      + exfalso. cbn [app] in E. rewrite <- E in N'. rewrite <- app_assoc in N'. destruct N' as [N1 N2].
        destruct X as [->| ->]; [apply N2|apply N1]; now eexists.
      + rewrite <- !app_assoc in E. apply IH. exists s'. split; [easy|]. split; [|easy].
        destruct X as [->| ->]; destruct X' as [->| ->]; cbn [app] in E; try discriminate E; now injection E.
  Qed.
  Lemma item_one : forall i p r p' r', item_reads i p r -> item_reads i p' r' -> p = p' /\ r = r'.
  Proof.
    intros i p r p' r' (j & P & A) (j' & P' & A'). apply (prop_reads_iff (E := verror)) in P. apply (prop_reads_iff (E := verror)) in P'.
    rewrite P in P'. injection P' as <- <-. split; [easy|]. now apply (breaks_one j).
  Qed.
  Lemma comp_one : forall i c r c' r', comp_reads i c r -> comp_reads i c' r' -> c = c' /\ r = r'.
  Proof.
    intros i c r c' r' H H'. destruct (reads_complete (E := verror)) as [Q _].
    pose proof (Q _ _ _ H (S (length i)) ltac:(lia)) as E1. pose proof (Q _ _ _ H' (S (length i)) ltac:(lia)) as E2.
    rewrite E1 in E2. now injection E2 as <- <-.
  Qed.
  Lemma comp_not_stuck : forall i c r, comp_reads i c r -> ~ comp_stuck i.
  Proof.
    intros i c r H S'. destruct (reads_complete (E := verror)) as (Q & _ & Q' & _).
    pose proof (Q _ _ _ H (S (length i)) ltac:(lia)) as E1. destruct (Q' _ S' (S (length i)) ltac:(lia)) as [e E2]. congruence.
  Qed.

  (** ** The last line *)

  Definition last_line (i : str) : Prop := forall a b, i = a ++ LF :: b -> b = [].
  Lemma last_suffix : forall a b, last_line (a ++ b) -> last_line b.
  Proof. intros a b L x y ->. apply (L (a ++ x)). now rewrite <- app_assoc. Qed.
  Lemma last_breaks : forall i j, last_line i -> after_breaks i j -> last_line j.
  Proof. intros i j L (b & _ & -> & _). now apply last_suffix in L. Qed.
  Lemma ends_key : forall c r, ~ key_char c -> ~ ends (c :: r) /\ ~ begins (c :: r).
  Proof.
    intros c r K. split; intros (k & x & E & Q); (destruct k as [|d k]; [discriminate E|]); injection Q as <- _; apply K; right;
      cbn [map] in E; injection E as E _.
    - assert (c = 101 \/ c = 69)%N as [->| ->]; [|easy|easy]. unfold lower_ascii, is_upper, in_range in E. match type of E with (if ?b then _ else _) = _ => destruct b eqn:Z end; lia.
    - assert (c = 98 \/ c = 66)%N as [->| ->]; [|easy|easy]. unfold lower_ascii, is_upper, in_range in E. match type of E with (if ?b then _ else _) = _ => destruct b eqn:Z end; lia.
  Qed.
  Lemma nothing_here : forall n ps cs r, ~ body_reads n [] ps cs r.
  Proof.
    intros n ps cs r H. apply reads_shrink in H as (_ & H & _); [|apply no_break_nil]. cbn in H. lia.
  Qed.
  Lemma break_last : forall b r, break b -> last_line (b ++ r) -> r = [].
  Proof. intros b r [->| ->] L; [apply (L [CR]); reflexivity|apply (L []); reflexivity]. Qed.
  Lemma after_last : forall rest j, last_line rest -> after_break rest j -> j = [] \/ j = rest.
  Proof. intros rest j L [(b & B & ->)|[_ ->]]; [left; now apply (break_last b)|now right]. Qed.
  Lemma breaks_last : forall rest j, last_line rest -> after_breaks rest j -> j = [] \/ j = rest.
  Proof.
    intros rest j L (b & B & -> & N). destruct B as [|x s X B]; [now right|]. rewrite <- app_assoc in L. apply (break_last x) in L; [|easy].
    apply app_eq_nil in L as [_ ->]. now left.
  Qed.
  (** An item of the last line takes it all, or leaves something that does not start with a name. *)
  Lemma item_last : forall i p j, last_line i -> item_reads i p j ->
    j = [] \/ j = i \/ (exists c r, j = c :: r /\ ~ key_char c) /\ length j < length i.
  Proof.
    intros i p j L (j0 & (_ & rest & A & D) & B). assert (Z : j0 = [] -> j = []).
    { intros ->. apply (breaks_last []) in B; [now destruct B|]. intros a b E. destruct a; discriminate E. }
    destruct D as [(w & k & qs & t & v & -> & _ & _ & _ & V & _)|(_ & k & -> & K & M & _)].
    - left. apply Z. assert (Lr : last_line rest).
      { intros x y ->. apply (L (w ++ k ++ t ++ COLON :: v ++ x)). rewrite <- !app_assoc. cbn [app]. now rewrite <- !app_assoc. }
      assert (R : rest = [] \/ break rest).
      { destruct V as [[(r & ->) _]|[[(r & ->) _]|[-> _]]]; [|  |now left]; right.
        - assert (r = []) as -> by now apply (break_last [CR; LF]); [left|]. now left.
        - assert (r = []) as -> by now apply (break_last [LF]); [right|]. now right. }
      destruct R as [->|R]; [now destruct (after_last _ _ Lr A)|]. destruct A as [(b & Bb & E)|[N _]].
      + subst rest. now apply (break_last b).
      + exfalso. destruct N as [N1 N2]. destruct R as [->| ->]; [apply N2|apply N1]; now exists [].
    - assert (Lr : last_line rest) by now apply last_suffix in L.
      destruct (after_last _ _ Lr A) as [->| ->]; [left; now apply Z|]. destruct (breaks_last _ _ Lr B) as [->| ->]; [now left|].
      destruct k as [|c k]; [right; now left|]. destruct rest as [|d rest]; [now left|]. right. right. split.
      + exists d, rest. split; [easy|]. now apply (M d rest).
      + rewrite app_length. cbn. lia.
  Qed.
  Lemma last_not_read : forall n i ps cs r, last_line i -> (forall ke x, map lower_ascii ke = lit "end:" -> i <> ke ++ n ++ x) ->
    ~ body_reads n i ps cs r.
  Proof.
    intros n i. remember (length i) as m eqn:M. revert n i M. induction m as [m IH] using (well_founded_induction lt_wf).
    intros n i -> ps cs r L H B.
    assert (K : forall n' c s ps cs, length (c :: s) < length i -> last_line (c :: s) -> ~ key_char c -> ~ body_reads n' (c :: s) ps cs r).
    { intros n' c s ps' cs' Lt Lc Kc. apply (IH _ Lt); try easy. intros ke x E Q. apply (proj1 (ends_key c s Kc)). exists ke, (n' ++ x). auto. }
    assert (J : forall p j ps cs, item_reads i p j -> j <> i -> ~ body_reads n j ps cs r).
    { intros p j ps' cs' I N B'. destruct (item_last _ _ _ L I) as [->|[->|[(c & s & -> & Kc) Lt]]]; [now apply nothing_here in B'|easy|].
      revert B'. apply K; try easy. apply item_suffix in I as [(x & ->) _]. now apply last_suffix in L. }
    inversion B as [? ke x ? E A|? ? c j ? ? ? C B'|? ? p j ? ? ? _ _ I N B'|? ? p j ? ? ? S' I B']; subst.
    - now apply (H ke x).
    - inversion C as [kb m i' j' ? ? ? E Nm Ne A B2]; subst.
      assert (Li : last_line i') by (do 2 apply last_suffix in L; exact L).
      destruct (breaks_last _ _ Li A) as [->| ->]; [now apply nothing_here in B2|]. destruct i' as [|c s]; [now apply nothing_here in B2|].
      revert B2. apply IH with (y := length (c :: s)); try easy.
      + rewrite !app_length. destruct kb; [discriminate E|]. cbn. lia.
      + intros ke x E' Q. apply (proj1 (ends_key c s (Ne c s eq_refl))). exists ke, (m ++ x). auto.
    - now apply (J p j ps0 cs).
    - assert (N : j <> i).
      { intros ->. apply reads_shrink in S'. revert I. now apply begin_not_self. }
      now apply (J p j ps0 cs).
  Qed.

  (** ** Documents *)

  Definition btext (n : str) (its : list (wline + wtree)) : str := concat (map strict_item its) ++ lit "END:" ++ n.
  Lemma render_eq : forall n its, strict_text (W n its) = lit "BEGIN:" ++ n ++ [CR; LF] ++ btext n its ++ [CR; LF].
  Proof. intros n its. unfold btext. cbn [strict_text]. rewrite <- !app_assoc. reflexivity. Qed.
  Notation iok := (either (wline_ok CrLf) (wtree_ok CrLf)).
  Notation isingle := (either (fun l => ~ In LF (wline_text l)) single).

  Lemma break_ends : forall n r, name_ends ([CR; LF] ++ r) /\ (name_ok n -> forall j, after_breaks r j -> after_breaks ([CR; LF] ++ r) j).
  Proof.
    intros n r. split.
    - intros c s E. injection E as <- _. intros K. apply is_key_char_spec in K. discriminate K.
    - intros _ j (b & B & -> & N). exists ([CR; LF] ++ b). split; [now constructor; [left|]|]. now rewrite <- app_assoc.
  Qed.
  Lemma line_item : forall l t t', wline_ok CrLf l -> after_breaks t t' -> item_reads (wline_text l ++ [CR; LF] ++ t) (wline_read l) t'.
  Proof.
    intros l t t' O A. destruct (property_text_ok (E := verror) CrLf l [CR; LF] t O) as (x & X & P); [now exists []; split; [|constructor]|easy|].
    apply prop_reads_iff in P. exists (x ++ t). split; [easy|]. destruct A as (b & B & -> & N). exists (x ++ b). split; [|now rewrite <- app_assoc].
    clear - X B. induction X as [|a s X S IH]; [easy|]. rewrite <- app_assoc. now constructor.
  Qed.
  Lemma line_start : forall l t, wline_ok CrLf l -> let i := wline_text l ++ [CR; LF] ++ t in ~ ends i /\ ~ begins i /\ no_break i.
  Proof.
    intros l t O. cbn zeta. destruct (wline_no_keyword CrLf l [CR; LF] t O) as (A & B & C); [now exists []; split; [|constructor]|].
    split; [now apply keyword_not|]. split; [now apply keyword_not|easy].
  Qed.
  Lemma item_moves : forall i p j, no_break i -> item_reads i p j -> begins i \/ j <> i -> j <> i.
  Proof. intros i p j N I [B|H]; [|easy]. intros ->. now apply begin_not_self in I. Qed.
  Lemma crlf_longer : forall l t t', after_breaks t t' -> t' <> wline_text l ++ [CR; LF] ++ t.
  Proof.
    intros l t t' (b & _ & -> & _) E. apply (f_equal (@length N)) in E. rewrite !app_length in E. cbn in E. lia.
  Qed.

  Lemma begin_reads : forall n x j ps cs r, name_ok n -> after_breaks x j -> body_reads n j ps cs r ->
    comp_reads (lit "BEGIN:" ++ n ++ [CR; LF] ++ x) (mk_pcomp n ps cs) r.
  Proof.
    intros n x j ps cs r Hn A B. apply (cr_comp (lit "BEGIN:") n ([CR; LF] ++ x) j); try easy; [apply (proj1 (break_ends n x))|].
    now apply (proj2 (break_ends n x)).
  Qed.
  Lemma self_after : forall i, no_break i -> after_breaks i i.
  Proof. intros i N. exists []. split; [constructor|]. split; [easy|now apply no_break_spec]. Qed.
  Lemma btext_start : forall n its x, Forall iok its -> no_break (btext n its ++ x).
  Proof.
    intros n its x O. destruct O as [|y its O _]; unfold btext; cbn [map concat app].
    - apply no_break_head; discriminate.
    - rewrite <- !app_assoc. destruct O as [l O|[m js] O]; cbn [strict_item]; [rewrite <- app_assoc; now apply line_start|].
      rewrite render_eq. apply no_break_head; discriminate.
  Qed.
  (** Reading on. *)
  Lemma items_on : forall n its tail r, Forall iok its ->
    (forall t, In (inr t) its -> wtree_ok CrLf t -> forall x j, after_breaks x j -> comp_reads (strict_text t ++ x) (wtree_read t) j) ->
    no_break tail -> (forall x its', x = concat (map strict_item its') ++ tail -> Forall iok its' -> no_break x) ->
    body_reads n tail [] [] r -> body_reads n (concat (map strict_item its) ++ tail)
      (flat_map (fun x => match x with inl l => [wline_read l] | inr _ => [] end) its)
      (flat_map (fun x => match x with inl _ => [] | inr t => [wtree_read t] end) its) r.
  Proof.
    intros n its tail r O IH N Nb H. induction O as [|x its Ox O IHl]; [easy|].
    specialize (IHl (fun t I => IH t (or_intror I))). cbn [map concat flat_map]. rewrite <- app_assoc.
    pose proof (Nb _ _ eq_refl O) as N'. apply self_after in N'. destruct Ox as [l Ol|t Ot]; cbn [strict_item app].
    - rewrite <- app_assoc. destruct (line_start l (concat (map strict_item its) ++ tail) Ol) as (S1 & S2 & S3).
      eapply br_prop; [exact S1|exact S2|apply line_item; eassumption| |exact IHl]. now apply crlf_longer.
    - apply (br_comp n _ _ (concat (map strict_item its) ++ tail)); [|easy]. now apply (IH t (or_introl eq_refl)).
  Qed.
  Lemma end_reads : forall n x j, after_breaks x j -> body_reads n ((lit "END:" ++ n) ++ x) [] [] j.
  Proof. intros n x j A. rewrite <- app_assoc. now apply br_end. Qed.
  Lemma concat_start : forall its tail, Forall iok its -> no_break tail -> no_break (concat (map strict_item its) ++ tail).
  Proof.
    intros its tail O N. destruct O as [|y its O _]; [easy|]. cbn [map concat]. rewrite <- !app_assoc.
    destruct O as [l O|[m js] O]; cbn [strict_item]; [rewrite <- app_assoc; now apply line_start|].
    rewrite render_eq. apply no_break_head; discriminate.
  Qed.
  Lemma tree_on : forall t, wtree_ok CrLf t -> forall n its, t = W n its ->
    forall x j, after_breaks x j -> comp_reads (lit "BEGIN:" ++ n ++ [CR; LF] ++ btext n its ++ x) (wtree_read t) j.
  Proof.
    induction t as [n its IH] using wtree_deep. intros O n' its' E x j A. injection E as <- <-. inversion O as [? ? Hn Hits]; subst.
    assert (N : no_break ((lit "END:" ++ n) ++ x)) by (apply no_break_head; discriminate).
    cbn [wtree_read]. apply (begin_reads n _ (concat (map strict_item its) ++ (lit "END:" ++ n) ++ x)); try easy.
    - unfold btext. rewrite <- !app_assoc. apply self_after. rewrite <- app_assoc in N. now apply concat_start.
    - apply items_on; try easy.
      + intros [m js] I Ot y k Ak. rewrite render_eq, <- !app_assoc. apply (IH _ I Ot m js eq_refl ([CR; LF] ++ y) k).
        now apply (proj2 (break_ends m y)); [inversion Ot|].
      + intros y its' -> O'. now apply concat_start.
      + now apply end_reads.
  Qed.
  Lemma render_on : forall t, wtree_ok CrLf t -> forall x j, after_breaks x j -> comp_reads (strict_text t ++ x) (wtree_read t) j.
  Proof.
    intros [n its] O x j A. rewrite render_eq, <- !app_assoc. apply (tree_on _ O n its eq_refl ([CR; LF] ++ x) j).
    apply (proj2 (break_ends n x)); [now inversion O|easy].
  Qed.
  (** Reading back: what is read after an item. *)
  Lemma render_begins : forall t x, begins (strict_text t ++ x).
  Proof. intros [n its] x. rewrite render_eq, <- !app_assoc. exists (lit "BEGIN:"). eexists. now split. Qed.
  Lemma begins_ends : forall i, begins i -> ~ ends i.
  Proof.
    intros i (k & r & K & ->). apply keyword_not. now apply begin_not_end.
  Qed.
  Lemma comp_back : forall n i c j ps cs r, comp_reads i c j -> body_reads n i ps cs r -> exists ps' cs', body_reads n j ps' cs' r.
  Proof.
    intros n i c j ps cs r C B. pose proof (proj1 (proj1 reads_shrink _ _ _ C)) as Bg.
    inversion B as [? ke x ? E A|? ? c' j' ? ? ? C' B'|? ? p j' ? ? ? N1 N2 I N B'|? ? p j' ? ? ? S' I B']; subst.
    - exfalso. apply (begins_ends _ Bg). exists ke. eauto.
    - destruct (comp_one _ _ _ _ _ C C') as [-> ->]. eauto.
    - easy.
    - now apply comp_not_stuck in C.
  Qed.
  Lemma item_back : forall n x t t' ps cs r, iok x -> after_breaks t t' -> body_reads n (strict_item x ++ t) ps cs r ->
    exists ps' cs', body_reads n t' ps' cs' r.
  Proof.
    intros n x t t' ps cs r O A B. destruct O as [l O|w O]; cbn [strict_item] in B.
    - rewrite <- app_assoc in B. destruct (line_start l t O) as (S1 & S2 & _). pose proof (line_item l t t' O A) as I.
      remember (wline_text l ++ [CR; LF] ++ t) as i eqn:Ei. clear Ei.
      inversion B as [? ke x ? E A'|? ? c' j' ? ? ? C' B'|? ? p j' ? ? ? N1 N2 I' N B'|? ? p j' ? ? ? S' I' B']; subst.
      + exfalso. apply S1. now exists ke, (n ++ x).
      + exfalso. apply S2. apply (proj1 reads_shrink _ _ _ C').
      + destruct (item_one _ _ _ _ _ I I') as [_ ->]. eauto.
      + exfalso. apply S2. now apply reads_shrink in S'.
    - pose proof (render_on w O t t' A) as C. now apply (comp_back n (strict_text w ++ t) (wtree_read w) t' ps cs r).
  Qed.

  (** ** Cutting *)

  Definition short (e : str) : Prop := In e [[]; [CR]; [LF]; [CR; LF]].
  Lemma app_cases : forall {A} (a b m r : list A), a ++ b = m ++ r ->
    (exists x, a = m ++ x /\ r = x ++ b) \/ (exists x, m = a ++ x /\ b = x ++ r /\ x <> []).
  Proof.
    induction a as [|c a IH]; intros b m r E.
    - destruct m as [|d m]; [left; now exists []|right; exists (d :: m); easy].
    - destruct m as [|d m]; [left; now exists (c :: a)|]. injection E as <- E. destruct (IH _ _ _ E) as [(x & -> & ->)|(x & -> & -> & X)].
      + left. now exists x.
      + right. now exists x.
  Qed.
  Lemma short_chars : forall e c, short e -> In c e -> c = CR \/ c = LF.
  Proof. intros e c [<-|[<-|[<-|[<-|[]]]]] I; cbn in I; intuition. Qed.
  Lemma keyword_chars : forall k w c, map lower_ascii k = lit w -> (w = "begin:" \/ w = "end:")%string -> In c k -> c <> CR /\ c <> LF.
  Proof.
    intros k w c E W I. apply (in_map lower_ascii) in I. rewrite E in I.
    split; intros ->; destruct W as [->| ->]; vm_compute in I; intuition discriminate.
  Qed.
  Lemma short_keyword : forall u e k r w, short e -> map lower_ascii k = lit w -> (w = "begin:" \/ w = "end:")%string ->
    u ++ e = k ++ r -> exists x, u = k ++ x.
  Proof.
    intros u e k r w S K W E. apply app_cases in E as [(x & -> & _)|(x & -> & -> & X)]; [now exists x|]. exfalso.
    destruct x as [|c x]; [easy|]. destruct (keyword_chars _ _ c K W) as [N1 N2]; [apply in_app_iff; right; now left|].
    destruct (short_chars _ c S) as [->| ->]; [now left|easy|easy].
  Qed.
  Lemma cut_not_ends : forall u z e, short e -> ~ ends (u ++ z) -> ~ ends (u ++ e).
  Proof.
    intros u z e S N (k & r & K & E). destruct (short_keyword _ _ _ _ _ S K (or_intror eq_refl) E) as [x ->]. apply N. exists k, (x ++ z).
    now rewrite <- app_assoc.
  Qed.
  Lemma last_cut : forall u z q e, ~ In LF q -> u ++ z = q ++ [CR; LF] -> z <> [] -> short e -> last_line (u ++ e).
  Proof.
    intros u z q e Q E Z S. assert (N : ~ In LF u).
    { change [CR; LF] with ([CR] ++ [LF]) in E. rewrite app_assoc in E. apply app_cases in E as [(x & -> & E)|(x & E & _)].
      - destruct x as [|c x]; [rewrite app_nil_r in *; intros I; apply in_app_iff in I as [I|[I|[]]]; [easy|discriminate I]|].
        injection E as _ E. symmetry in E. apply app_eq_nil in E as [_ E]. easy.
      - intros I. assert (J : In LF (q ++ [CR])) by (rewrite E; apply in_app_iff; now left). apply in_app_iff in J as [J|[J|[]]]; [easy|discriminate J]. }
    intros a b E2. apply app_cases in E2 as [(x & -> & E2)|(x & -> & -> & X)].
    - destruct x as [|c x]; [|exfalso; injection E2 as <- _; apply N; apply in_app_iff; right; now left].
      destruct S as [<-|[<-|[<-|[<-|[]]]]]; cbn in E2; try discriminate E2; now injection E2.
    - destruct x as [|c x]; [easy|]. destruct S as [S|[S|[S|[S|[]]]]]; cbn [app] in S; try discriminate S.
      + injection S as _ S. destruct x; discriminate S.
      + injection S as _ S. destruct x; discriminate S.
      + injection S as _ S. destruct x as [|d x]; [now injection S as <-|]. injection S as _ S. destruct x; discriminate S.
  Qed.
  Lemma last_comp : forall i c r, last_line i -> ~ comp_reads i c r.
  Proof.
    intros i c r L C. inversion C as [kb m i' j' ? ? ? E Nm Ne A B2]; subst.
    assert (Li : last_line i') by (do 2 apply last_suffix in L; exact L).
    destruct (breaks_last _ _ Li A) as [->| ->]; [now apply nothing_here in B2|]. destruct i' as [|d s]; [now apply nothing_here in B2|].
    revert B2. apply last_not_read; [easy|].
    intros ke x E' Q. apply (proj1 (ends_key d s (Ne d s eq_refl))). exists ke, (m ++ x). auto.
  Qed.
  Lemma last_body : forall n i j ps cs r, last_line i -> after_breaks i j -> ~ ends i -> ~ body_reads n j ps cs r.
  Proof.
    intros n i j ps cs r L A N. destruct (breaks_last _ _ L A) as [->| ->]; [apply nothing_here|]. apply last_not_read; [easy|].
    intros ke x E Q. apply N. exists ke, (n ++ x). auto.
  Qed.
  Lemma key_no_cr_lf : ~ key_char CR /\ ~ key_char LF.
  Proof. split; intros H; apply is_key_char_spec in H; discriminate H. Qed.
  Lemma name_no_lf : forall n, name_ok n -> ~ In LF n /\ ~ In CR n.
  Proof. intros n H. split; apply name_no_special; try easy; cbn; auto. Qed.
  Lemma begin_one : forall n x j kb m i j', name_ok n -> after_breaks x j -> map lower_ascii kb = lit "begin:" -> name_ok m -> name_ends i ->
    after_breaks i j' -> lit "BEGIN:" ++ n ++ [CR; LF] ++ x = kb ++ m ++ i -> m = n /\ j' = j.
  Proof.
    intros n x j kb m i j' Hn A K M Ne A' E.
    pose proof (begin_line (E := verror) kb m i j' K M Ne A') as P'.
    pose proof (begin_line (E := verror) (lit "BEGIN:") n ([CR; LF] ++ x) j eq_refl Hn (proj1 (break_ends n x)) (proj2 (break_ends n x) Hn j A)) as P.
    rewrite E, P' in P. now injection P.
  Qed.

  Definition tree_cut (t : wtree) : Prop := forall u z e j, strict_text t = u ++ z -> 2 < length z -> short e -> after_breaks (u ++ e) j ->
    (forall c r, ~ comp_reads j c r) /\ forall n ps cs r, ~ body_reads n j ps cs r.
  Lemma body_cut : forall n its, name_ok n -> Forall iok its -> Forall isingle its -> (forall t, In (inr t) its -> wtree_ok CrLf t -> single t -> tree_cut t) ->
    forall u z e j, btext n its ++ [CR; LF] = u ++ z -> 2 < length z -> short e -> after_breaks (u ++ e) j -> forall ps cs r, ~ body_reads n j ps cs r.
  Proof.
    intros n its Hn O G IH. induction O as [|x its Ox O IHl]; intros u z e j E Lz Se A ps cs r.
    - unfold btext in E. cbn [map concat app] in E. destruct (name_no_lf n Hn) as [Nl Nc].
      assert (L : last_line (u ++ e)).
      { apply (last_cut u z (lit "END:" ++ n) e); try easy; [|destruct z; [cbn in Lz; lia|easy]].
        intros I. apply in_app_iff in I as [I|I]; [vm_compute in I; intuition discriminate|easy]. }
      destruct (breaks_last _ _ L A) as [->| ->]; [apply nothing_here|]. apply last_not_read; [easy|]. intros ke y K Q.
      destruct (short_keyword _ _ _ _ _ Se K (or_intror eq_refl) Q) as [y' ->]. rewrite <- app_assoc in Q. apply app_inv_head in Q.
      assert (Lk : length ke = 4) by (apply (f_equal (@length N)) in K; now rewrite map_length in K).
      assert (El : y' ++ z = n ++ [CR; LF]).
      { rewrite <- !app_assoc in E. change (lit "END:" ++ n ++ [CR; LF]) with (69 :: 78 :: 68 :: 58 :: n ++ [CR; LF])%N in E.
        destruct ke as [|k1 [|k2 [|k3 [|k4 [|]]]]]; try discriminate Lk. cbn [app] in E. now injection E. }
      apply app_cases in El as [(w & -> & El)|(w & -> & _ & W)].
      + apply (f_equal (@length N)) in El. rewrite app_length in El. cbn in El. lia.
      + rewrite <- app_assoc in Q. apply app_inv_head in Q. destruct w as [|c w]; [easy|].
        assert (I : In c (y' ++ c :: w)) by (apply in_app_iff; right; now left).
        destruct (short_chars e c Se) as [->| ->]; [rewrite Q; now left|easy|easy].
    - inversion G as [|? ? Gx G']; subst. specialize (IHl G' (fun t I => IH t (or_intror I))).
      unfold btext in E. cbn [map concat] in E. rewrite <- !app_assoc in E.
      assert (Nz : z <> []) by (destruct z; [cbn in Lz; lia|easy]).
      symmetry in E. apply app_cases in E as [(u' & -> & E)|(z1 & E1 & E2 & N1)].
      + assert (Nb : no_break (strict_item x ++ u' ++ e)).
        { destruct Ox as [l Ol|[m js] Ot]; cbn [strict_item]; [rewrite <- app_assoc; now apply line_start|]. rewrite render_eq. apply no_break_head; discriminate. }
        rewrite <- app_assoc in A. apply no_breaks_self in A as ->; [|easy]. destruct (after_breaks_ex (u' ++ e)) as [j' A'].
        intros B. apply (item_back n x (u' ++ e) j' ps cs r Ox A') in B as (ps' & cs' & B). revert B.
        apply (IHl u' z e j'); try easy. unfold btext. rewrite <- !app_assoc. easy.
      + destruct Ox as [l Ol|t Ot]; cbn [strict_item] in E1.
        * inversion Gx as [? Gl|]; subst. apply (last_body n (u ++ e)); try easy; [now apply (last_cut u z1 (wline_text l))|].
          apply (cut_not_ends u z1); [easy|]. rewrite <- E1, <- (app_nil_r (_ ++ [CR; LF])), <- app_assoc. now apply line_start.
        * inversion Gx as [|? Gt]; subst. destruct (Nat.lt_ge_cases 2 (length z1)) as [Lt|Le].
          -- now apply (IH t (or_introl eq_refl) Ot Gt u z1 e j).
          -- destruct t as [m js]. rewrite render_eq in E1. 
             assert (exists y, u = lit "BEGIN:" ++ m ++ [CR; LF] ++ btext m js ++ y /\ [CR; LF] = y ++ z1) as (y & -> & Ey).
             { rewrite !app_assoc in E1. apply app_cases in E1 as [(y & E1 & E3)|(y & -> & E3 & _)].
               - assert (y = []) as ->.
                 { apply (f_equal (@length N)) in E3. rewrite app_length in E3. cbn [length] in E3. destruct y; [easy|cbn [length] in E3; lia]. }
                 exists []. rewrite !app_assoc, app_nil_r in *. now rewrite E1.
               - exists y. rewrite !app_assoc. easy. }
             assert (Sy : y ++ z1 = [CR; LF]) by easy. clear Ey.
             assert (Ly : last_line (y ++ e)) by now apply (last_cut y z1 []).
             assert (Ny : ~ ends (y ++ e)).
             { destruct y as [|c y]; [|injection Sy as -> _; now apply ends_key; apply key_no_cr_lf].
               destruct e as [|c e]; [now intros ([|] & ? & ? & ?)|]. apply ends_key. destruct (short_chars _ c Se) as [->| ->]; [now left|apply key_no_cr_lf|apply key_no_cr_lf]. }
             rewrite <- !app_assoc in A. apply no_breaks_self in A as ->; [|apply no_break_head; discriminate].
             destruct (after_breaks_ex (y ++ e)) as [j' A']. pose proof (tree_on _ Ot m js eq_refl (y ++ e) j' A') as C.
             intros B. apply (comp_back n _ _ _ _ _ _ C) in B as (ps' & cs' & B). revert B. now apply (last_body n (y ++ e)).
  Qed.
  Lemma all_cut : forall t, wtree_ok CrLf t -> single t -> tree_cut t.
  Proof.
    induction t as [n its IH] using wtree_deep. intros O G. inversion O as [? ? Hn Hits]; subst. inversion G as [? ? Gits]; subst.
    intros u z e j E Lz Se A. rewrite render_eq in E.
    assert (Nz : z <> []) by (destruct z; [cbn in Lz; lia|easy]). destruct (name_no_lf n Hn) as [Nl Nc].
    change (lit "BEGIN:" ++ n ++ [CR; LF] ++ btext n its ++ [CR; LF]) with (lit "BEGIN:" ++ n ++ ([CR; LF] ++ btext n its ++ [CR; LF])) in E.
    rewrite (app_assoc n), (app_assoc (lit "BEGIN:")) in E. symmetry in E. apply app_cases in E as [(u' & -> & E)|(z1 & E1 & E2 & N1)].
    - rewrite <- !app_assoc in A. apply no_breaks_self in A as ->; [|apply no_break_head; discriminate].
      destruct (after_breaks_ex (u' ++ e)) as [j' A'].
      assert (N : forall c r, ~ comp_reads (lit "BEGIN:" ++ n ++ [CR; LF] ++ u' ++ e) c r).
      { intros c r C. remember (lit "BEGIN:" ++ n ++ [CR; LF] ++ u' ++ e) as i eqn:Ei. inversion C as [kb m i' j2 ? ? ? K Nm Ne A2 B2]; subst.
        destruct (begin_one n (u' ++ e) j' kb m i' j2) as [-> ->]; try easy. revert B2.
        now apply (body_cut n its Hn Hits Gits (fun t I Ot Gt => IH t I Ot Gt) u' z e j'). }
      split; [easy|]. intros n0 ps cs r B. remember (lit "BEGIN:" ++ n ++ [CR; LF] ++ u' ++ e) as i eqn:Ei.
      assert (Bg : begins i) by (exists (lit "BEGIN:"); eexists; split; [reflexivity|exact Ei]).
      inversion B as [? ke x ? E' A3|? ? c' j3 ? ? ? C' B'|? ? p j3 ? ? ? N3 N2 I N4 B'|? ? p j3 ? ? ? S' I B']; subst i0 || idtac.
      + apply (begins_ends _ Bg). exists ke, (n0 ++ x). easy.
      + now apply (N _ _ C').
      + easy.
      + destruct I as (? & (R & _) & _). apply R. exists [], (58%N :: n ++ [CR; LF] ++ u' ++ e). split; [constructor|]. right. rewrite Ei. reflexivity.
    - assert (L : last_line (u ++ e)).
      { apply (last_cut u z1 (lit "BEGIN:" ++ n) e); try easy.
        intros I. apply in_app_iff in I as [I|I]; [vm_compute in I; intuition discriminate|easy]. }
      split.
      + intros c r. apply last_comp. now apply last_breaks in A.
      + intros n0 ps cs r. apply (last_body n0 (u ++ e)); try easy. apply (cut_not_ends u z1); [easy|]. rewrite <- E1.
        apply begins_ends. exists (lit "BEGIN:"). eexists. now split.
  Qed.

  (** ** Cuts inside of a sub-component *)

  Lemma inside_fails : forall n its t u z, Forall iok its -> wtree_ok CrLf t -> single t -> strict_text t = u ++ z ->
    5 <= length u -> 2 < length z -> body_fails n (concat (map strict_item its) ++ u).
  Proof.
    intros n its t u z O Ot Gt E L5 Lz.
    assert (R : exists v, u = lit "BEGIN" ++ v).
    { destruct t as [m js]. rewrite render_eq in E.
      change (lit "BEGIN:" ++ m ++ [CR; LF] ++ btext m js ++ [CR; LF]) with (lit "BEGIN" ++ lit ":" ++ m ++ [CR; LF] ++ btext m js ++ [CR; LF]) in E.
      symmetry in E. apply app_cases in E as [(v & -> & _)|(v & E & _ & V)]; [now exists v|].
      apply (f_equal (@length N)) in E. rewrite app_length in E. destruct v; [easy|]. cbn in E. lia. }
    destruct R as [v ->]. assert (N : no_break (lit "BEGIN" ++ v)) by (apply no_break_head; discriminate).
    destruct (all_cut t Ot Gt (lit "BEGIN" ++ v) z [] (lit "BEGIN" ++ v) E Lz (or_introl eq_refl)) as [C _]; [rewrite app_nil_r; now apply self_after|].
    assert (B : body_fails n (lit "BEGIN" ++ v)).
    { assert (Rv : reserved (lit "BEGIN" ++ v)) by (exists [], v; split; [constructor|now right]).
      assert (Ne : ~ ends (lit "BEGIN" ++ v)) by (intros (k & x & K & Q); destruct k as [|c k]; [discriminate K|]; injection Q as <- _; discriminate K).
      pose proof (component_sound (E := verror) (S (length (lit "BEGIN" ++ v))) _ N) as P.
      destruct (component (S (length (lit "BEGIN" ++ v))) (lit "BEGIN" ++ v)) as [r c|e|e|] eqn:Q.
      - now apply C in P.
      - apply bf_prop; [easy|tauto|easy].
      - now apply bf_comp.
      - exfalso. pose proof (component_total (E := verror) (lit "BEGIN" ++ v)) as T. unfold component_p in T. now rewrite Q in T. }
    induction O as [|x its Ox O IHl]; [easy|]. cbn [map concat]. rewrite <- app_assoc.
    pose proof (self_after _ (concat_start its _ O N)) as A. destruct Ox as [l Ol|w Ow]; cbn [strict_item].
    - rewrite <- app_assoc. destruct (line_start l (concat (map strict_item its) ++ lit "BEGIN" ++ v) Ol) as (S1 & S2 & S3).
      eapply bf_next_prop; [exact S1|now left|apply line_item; eassumption| |exact IHl]. now apply crlf_longer.
    - eapply bf_next_comp; [|exact IHl]. now apply render_on.
  Qed.
End Cut.
