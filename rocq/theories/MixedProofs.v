(** Documents whose lines end in different ways. *)
From Verif Require Import Str StrFacts Spec ValueTypes Property Chrono DateTime Component Calendar Nom Parser Text TextProofs SpecDoc SpecItems SpecGrammar SpecCut SpecMixed
  ParserProofs TotalProofs ReadProofs AcceptProofs RejectProofs ItemProofs DocProofs GrammarProofs TruncProofs EdgeProofs EndProofs.
From Coq Require Import ZifyBool ZifyNat ZifyN.

Scheme mixed_mut := Induction for mixed Sort Prop
  with mixed_items_mut := Induction for mixed_items Sort Prop.
Combined Scheme mixed_both from mixed_mut, mixed_items_mut.

(** ** Values with LF *)

Lemma replace_lf : forall c d, c <> LF -> forall a b, replace [BSL; c] [d] (a ++ LF :: b) = replace [BSL; c] [d] a ++ LF :: replace [BSL; c] [d] b.
Proof.
  intros c d C a b. induction a as [a IH] using (well_founded_induction (well_founded_ltof _ (@length N))). unfold ltof in IH.
  destruct a as [|x a]; [cbn [app]; now rewrite replace_skip|]. destruct a as [|y a].
  - cbn [app]. rewrite replace_skip; [|cbn [starts_with]; destruct (N.eqb_spec BSL x); [|easy]; destruct (N.eqb_spec c LF); easy].
    rewrite replace_skip; [|easy]. rewrite replace_skip; [reflexivity|]. cbn [starts_with]. now rewrite andb_false_r.
  - destruct (starts_with [BSL; c] (x :: y :: a)) eqn:Q.
    + cbn [starts_with] in Q. rewrite andb_true_r in Q. apply andb_true_iff in Q as [Q1 Q2]. apply N.eqb_eq in Q1, Q2. subst x y.
      change ((BSL :: c :: a) ++ LF :: b) with ([BSL; c] ++ (a ++ LF :: b)). change (BSL :: c :: a) with ([BSL; c] ++ a).
      rewrite !replace_match, IH; [|cbn; lia]. reflexivity.
    + rewrite (replace_skip _ _ x (y :: a) Q). change ((x :: y :: a) ++ LF :: b) with (x :: (y :: a) ++ LF :: b).
      rewrite replace_skip; [|exact Q]. rewrite IH; [reflexivity|cbn; lia].
Qed.
Lemma unescape_all : forall s, unescape_text s = replace [BSL; 110%N] [LF] (replace [BSL; 78%N] [LF] (replace [BSL; COLON] [COLON]
  (replace [BSL; SEMI] [SEMI] (replace [BSL; COMMA] [COMMA] (replace [BSL; BSL] [BSL] s))))).
Proof.
  intros s. unfold unescape_text. match goal with |- (if ?b then _ else _) = _ => destruct b eqn:Q end; [easy|].
  repeat (apply orb_false_iff in Q as [Q ?]). now repeat (rewrite (replace_absent _ _ s) by easy).
Qed.
Lemma unescape_lf : forall a b, unescape_text (a ++ LF :: b) = unescape_text a ++ LF :: unescape_text b.
Proof. intros a b. rewrite !unescape_all. now rewrite !replace_lf. Qed.

Section Mixed.
  Context {U : Unicode}.
  Notation iok := (either (wline_ok CrLf) (wtree_ok CrLf)).
  Notation lines_of := (flat_map (fun x => match x with inl l => [wline_read l] | inr _ => [] end)).
  Notation trees_of := (flat_map (fun x => match x with inl _ => [] | inr t => [wtree_read t] end)).

  Lemma decode_longer : forall k qs v x, decode_value k qs (v ++ LF :: x) <> decode_value k qs v.
  Proof.
    intros k qs v x H. apply (f_equal (@length N)) in H. unfold decode_value in H.
    destruct (determin_value_type k qs) as [[]|]; rewrite ?unescape_lf in H; rewrite app_length in H; cbn [length] in H; lia.
  Qed.

  (** ** Breaks *)

  Lemma brk_break : forall y, break (brk y).
  Proof. intros []; [now left|now right]. Qed.
  Lemma brks_breaks : forall ys, breaks (brks ys).
  Proof. induction ys as [|y ys IH]; [constructor|]. unfold brks. cbn [map concat]. constructor; [apply brk_break|exact IH]. Qed.
  Lemma breaks_app : forall a b, breaks a -> breaks b -> breaks (a ++ b).
  Proof. intros a b A B. induction A as [|x s X A IH]; [easy|]. rewrite <- app_assoc. now constructor. Qed.
  Lemma brks_after : forall ys r j, after_breaks r j -> after_breaks (brks ys ++ r) j.
  Proof.
    intros ys r j (b & B & -> & N). exists (brks ys ++ b). split; [apply breaks_app; [apply brks_breaks|easy]|]. split; [now rewrite app_assoc|easy].
  Qed.
  Lemma brk_ends : forall y r, name_ends (brk y ++ r).
  Proof. intros [] r c s E; injection E as <- _; intros K; apply is_key_char_spec in K; discriminate K. Qed.
  Lemma brks_ends : forall ys r, ys <> [] -> name_ends (brks ys ++ r).
  Proof. intros [|y ys] r H; [easy|]. unfold brks. cbn [map concat]. rewrite <- app_assoc. apply brk_ends. Qed.

  (** ** CR LF in texts *)

  Lemma no_crlf_app : forall a x b, ~ has_crlf (a ++ [LF]) -> ~ has_crlf b -> x = [LF] -> ~ has_crlf (a ++ x ++ b).
  Proof.
    intros a x b A B -> (u & v & E). apply TruncProofs.app_cases in E as [(z & Ea & Eb)|(z & Ea & Eb & Z)].
    - destruct z as [|c z].
      + cbn [app] in Eb. discriminate Eb.
      + injection Eb as Ec Eb. destruct z as [|d z].
        * cbn [app] in Eb. injection Eb as ?. subst. apply A. exists u, []. now rewrite <- app_assoc.
        * injection Eb as Ed Eb. subst. apply A. exists u, (z ++ [LF]). rewrite <- app_assoc. reflexivity.
    - cbn [app] in Eb. destruct z as [|c z]; [easy|]. injection Eb as <- Eb. apply B. exists z, v. exact Eb.
  Qed.
  Definition all_lf (fs : list (bool * style)) : Prop := ~ In CrLf (map snd fs).
  Lemma brks_lf : forall v ys, ~ In CrLf (map snd (tagged v ys)) <-> ~ In CrLf ys.
  Proof.
    intros v [|y ys]; [easy|]. cbn [tagged map snd In]. rewrite map_map. cbn [snd]. now rewrite map_id.
  Qed.
  Lemma brks_no_crlf : forall ys r, ~ In CrLf ys -> ~ has_crlf r -> ~ has_crlf (brks ys ++ r).
  Proof.
    induction ys as [|[] ys IH]; intros r N R; [easy|exfalso; apply N; now left|]. unfold brks. cbn [map concat brk].
    rewrite <- app_assoc. apply (no_crlf_app [] [LF]); [|apply IH; [intros I; apply N; now right|easy]|easy].
    intros ([|c a] & b & E); [discriminate E|]. injection E as _ E. destruct a; discriminate E.
  Qed.
  Lemma line_no_crlf : forall a ys r, ~ In LF a -> (forall x, a <> x ++ [CR]) -> ys <> [] -> ~ In CrLf ys -> ~ has_crlf r -> ~ has_crlf (a ++ brks ys ++ r).
  Proof.
    intros a [|[] ys] r A T Y N R; [easy|exfalso; apply N; now left|]. unfold brks. cbn [map concat brk]. rewrite <- app_assoc.
    apply no_crlf_app; [|apply brks_no_crlf; [intros I; apply N; now right|easy]|easy].
    intros (x & y & E). apply TruncProofs.app_cases in E as [(z & Ea & Eb)|(z & Ea & Eb & Z)].
    - destruct z as [|c z]; [discriminate Eb|]. injection Eb as <- Eb. destruct z as [|d z].
      + now apply (T x).
      + injection Eb as <- Eb. subst a. apply A. rewrite in_app_iff. right. right. now left.
    - destruct z as [|c z]; [easy|]. injection Eb as _ Eb. destruct z; discriminate Eb.
  Qed.
  Lemma name_tidy : forall k n, name_ok n -> (exists w, map lower_ascii k = lit w /\ (w = "begin:" \/ w = "end:")%string) -> ~ In LF (k ++ n) /\ forall x, k ++ n <> x ++ [CR].
  Proof.
    intros k n Hn (w & K & Hw). apply name_no_lf in Hn as [N1 N2]. pose proof (fun c => keyword_chars k w c K Hw) as C.
    assert (I : ~ In LF (k ++ n)) by (rewrite in_app_iff; intros [I|I]; [now apply C in I|easy]).
    split; [easy|]. intros x E. assert (Z : In CR (k ++ n)) by (rewrite E, in_app_iff; right; now left).
    rewrite in_app_iff in Z. destruct Z as [Z|Z]; [now apply C in Z|easy].
  Qed.
  Lemma mixed_no_crlf : (forall t fs s, mixed t fs s -> wtree_ok CrLf t -> all_lf fs -> forall r, ~ has_crlf r -> ~ has_crlf (s ++ r))
    /\ (forall its fs s, mixed_items its fs s -> Forall iok its -> all_lf fs -> forall r, ~ has_crlf r -> ~ has_crlf (s ++ r)).
  Proof.
    apply mixed_both; unfold all_lf.
    - intros n its kb ke b e fs s Kb Ke B E M IH O L r R. inversion O as [? ? Hn Hits]; subst. rewrite !map_app, !in_app_iff in L.
      assert (Lb : ~ In CrLf b) by (rewrite <- (brks_lf false); tauto). assert (Le : ~ In CrLf e) by (rewrite <- (brks_lf false); tauto).
      destruct (name_tidy kb n Hn) as [T1 T2]; [now exists "begin:"%string; auto|]. destruct (name_tidy ke n Hn) as [T3 T4]; [now exists "end:"%string; auto|].
      replace ((kb ++ n ++ brks b ++ s ++ ke ++ n ++ brks e) ++ r) with ((kb ++ n) ++ brks b ++ (s ++ (ke ++ n) ++ brks e ++ r)) by (now rewrite <- !app_assoc).
      apply line_no_crlf; try easy. apply IH; [easy|tauto|]. now apply line_no_crlf.
    - easy.
    - intros l ys its fs s [T1 T2] Y M IH O L r R. rewrite map_app, in_app_iff in L. inversion O; subst.
      rewrite <- !app_assoc. apply line_no_crlf; try easy; [rewrite <- (brks_lf (valued l)); tauto|]. apply IH; tauto.
    - intros t its fs s fs' s' M IH M' IH' O L r R. rewrite map_app, in_app_iff in L. inversion O as [|? ? Ot Oi]; subst. inversion Ot; subst.
      rewrite <- app_assoc. apply IH; [easy|tauto|]. apply IH'; tauto.
  Qed.
  Lemma crlf_right : forall a b, has_crlf b -> has_crlf (a ++ b).
  Proof. intros a b (u & v & ->). exists (a ++ u), v. now rewrite <- app_assoc. Qed.
  Lemma crlf_left : forall a b, has_crlf a -> has_crlf (a ++ b).
  Proof. intros a b (u & v & ->). exists u, (v ++ b). now rewrite <- !app_assoc. Qed.
  Lemma brks_crlf : forall ys, In CrLf ys -> has_crlf (brks ys).
  Proof.
    induction ys as [|y ys IH]; intros []; unfold brks; cbn [map concat].
    - subst y. cbn [brk]. now exists [], (concat (map brk ys)).
    - apply crlf_right. now apply IH.
  Qed.
  Lemma tagged_crlf : forall v ys, In CrLf (map snd (tagged v ys)) -> has_crlf (brks ys).
  Proof.
    intros v [|y ys] H; [easy|]. apply brks_crlf. cbn [tagged map snd] in H. rewrite map_map in H. cbn [snd] in H. now rewrite map_id in H.
  Qed.
  Lemma mixed_crlf : (forall t fs s, mixed t fs s -> In CrLf (map snd fs) -> has_crlf s)
    /\ (forall its fs s, mixed_items its fs s -> In CrLf (map snd fs) -> has_crlf s).
  Proof.
    apply mixed_both.
    - intros n its kb ke b e fs s Kb Ke B E M IH L. rewrite !map_app, !in_app_iff in L. do 2 apply crlf_right.
      destruct L as [L|[L|L]]; [apply crlf_left; now apply tagged_crlf in L|apply crlf_right, crlf_left; now apply IH|].
      do 4 apply crlf_right. now apply tagged_crlf in L.
    - easy.
    - intros l ys its fs s T Y M IH L. rewrite map_app, in_app_iff in L. apply crlf_right. destruct L as [L|L]; [apply crlf_left; now apply tagged_crlf in L|apply crlf_right; now apply IH].
    - intros t its fs s fs' s' M IH M' IH' L. rewrite map_app, in_app_iff in L. destruct L; [apply crlf_left|apply crlf_right]; auto.
  Qed.

  (** ** Lines *)

  Lemma tidy_lf : forall l, wline_ok CrLf l -> tidy l -> wline_ok Lf l.
  Proof.
    intros [k qs v|k] O [T _]; [|exact O]. destruct O as (O1 & O2 & _). split; [easy|]. split; [easy|]. intros I. apply T.
    cbn [wline_text]. rewrite !in_app_iff. right. right. now right.
  Qed.
  Lemma brk_end : forall y, line_end y (brk y).
  Proof. intros []; [exists []; split; [reflexivity|constructor]|now exists 0]. Qed.
  Lemma start_mixed : forall l y t, wline_ok CrLf l -> tidy l -> let i := wline_text l ++ brk y ++ t in ~ ends i /\ ~ begins i /\ no_break i.
  Proof.
    intros l y t O T. cbn zeta. assert (O' : wline_ok y l) by (destruct y; [easy|now apply tidy_lf]).
    destruct (wline_no_keyword y l (brk y) t O' (brk_end y)) as (A & B & C). split; [now apply keyword_not|]. split; [now apply keyword_not|easy].
  Qed.
  Lemma params_end : forall qs p r, params_read qs p (COLON :: r) -> name_ends (p ++ COLON :: r).
  Proof.
    intros qs p r P.
    assert (S1 : ~ key_char SEMI) by (intros Z; apply is_key_char_spec in Z; discriminate Z).
    assert (C1 : ~ key_char COLON) by (intros Z; apply is_key_char_spec in Z; discriminate Z).
    inversion P as [rest P0 E1 E2 E3|q1 qs' s p' rest P1 P2 E1 E2 E3]; subst; intros c x Q; [injection Q as <- _; exact C1|].
    inversion P1; subst; injection Q as <- _; exact S1.
  Qed.
  Lemma bare_lf : forall x t t', prop_name_ok x -> x <> [] -> after_breaks t t' -> item_reads (x ++ [LF] ++ t) (mk_pprop x [] []) t'.
  Proof.
    intros x t t' (K & K1 & K2 & _) X A. exists t. split; [|easy]. split; [|exists ([LF] ++ t); split; [left; exists [LF]; split; [now right|easy]|]; right; split; [|exists x; repeat apply conj; try easy; apply (brk_ends Lf)]].
    - intros (w & r & Wh & R). destruct w as [|d w].
      + destruct R as [R|R]; [apply K1|apply K2]; (apply (name_prefix _ x ([LF] ++ t)); [now apply name_ok_spec|apply (brk_ends Lf)|now exists r]).
      + inversion Wh as [|? ? W' _]; subst. destruct x as [|c x]; [easy|]. inversion K as [|? ? K' _]; subst. destruct R as [R|R]; injection R as -> _; now apply white_key in W'.
    - intros q y (w & k & qs & p & v & E & Wh & Kk & P & _). destruct w as [|c w].
      + cbn [app] in E. change (LF :: t) with ([LF] ++ t) in E. apply name_cut in E as [_ E]; try easy; [|apply (brk_ends Lf)|now apply (params_end qs)].
        inversion P as [rest P0 E1 E2 E3|q1 qs' s p' rest P1 P2 E1 E2 E3]; subst; [discriminate E|]. inversion P1; subst; discriminate E.
      + inversion Wh as [|? ? W' _]; subst. destruct x as [|d x]; [easy|]. injection E as -> _. inversion K as [|? ? K' _]; subst. now apply white_key in W'.
  Qed.
  Lemma line_mixed : forall l y t t', wline_ok CrLf l -> tidy l -> (valued l = true -> y = Lf -> ~ has_crlf t) -> after_breaks t t' ->
    item_reads (wline_text l ++ brk y ++ t) (wline_read l) t'.
  Proof.
    intros l y t t' O T C A. destruct y; [now apply line_item|]. destruct l as [k qs v|k].
    - specialize (C eq_refl eq_refl). pose proof (tidy_lf _ O T) as O'. destruct T as [T1 T2].
      destruct (property_text_ok (E := verror) Lf (LValue k qs v) [LF] t O') as (x & X & P); [now exists 0|intros _; apply (line_no_crlf _ [Lf] t); try easy; intros [I|[]]; discriminate I|].
      apply prop_reads_iff in P. exists (x ++ t). split; [easy|]. destruct A as (b & B & -> & N). exists (x ++ b). split; [now apply breaks_app|].
      split; [now rewrite <- app_assoc|easy].
    - destruct O as [O1 O2]. now apply bare_lf.
  Qed.
  Lemma line_longer : forall l y t t', after_breaks t t' -> t' <> wline_text l ++ brk y ++ t.
  Proof.
    intros l y t t' (b & _ & -> & _) E. apply (f_equal (@length N)) in E. rewrite !app_length in E. destruct y; cbn in E; lia.
  Qed.

  (** ** Reading *)

  Definition fine (fs : list (bool * style)) (r : str) : Prop := forall a b, fs = a ++ (true, Lf) :: b -> all_lf b /\ ~ has_crlf r.
  Lemma fine_right : forall x fs r, fine (x ++ fs) r -> fine fs r.
  Proof. intros x fs r F a b ->. apply (F (x ++ a) b). now rewrite <- app_assoc. Qed.
  Lemma all_lf_app : forall a b, all_lf (a ++ b) <-> all_lf a /\ all_lf b.
  Proof. intros a b. unfold all_lf. rewrite map_app, in_app_iff. tauto. Qed.
  Lemma keyword_head_no_break : forall k w r, map lower_ascii k = lit w -> (w = "begin:" \/ w = "end:")%string -> no_break (k ++ r).
  Proof.
    intros k w r K W. destruct k as [|c k]; [destruct W as [->| ->]; discriminate K|].
    destruct (keyword_chars _ w c K W (or_introl eq_refl)) as [C1 C2]. now apply no_break_head.
  Qed.
  Lemma mixed_reads :
    (forall t fs s, mixed t fs s -> wtree_ok CrLf t -> forall r j, fine fs r -> after_breaks r j -> comp_reads (s ++ r) (wtree_read t) j)
    /\ (forall its fs s, mixed_items its fs s -> Forall iok its -> forall n tail ps cs r, fine fs tail -> no_break tail -> body_reads n tail ps cs r ->
        no_break (s ++ tail) /\ body_reads n (s ++ tail) (lines_of its ++ ps) (trees_of its ++ cs) r).
  Proof.
    apply mixed_both.
    - intros n its kb ke b e fs s Kb Ke B E M IH O r j F A. inversion O as [? ? Hn Hits]; subst.
      replace ((kb ++ n ++ brks b ++ s ++ ke ++ n ++ brks e) ++ r) with (kb ++ n ++ brks b ++ s ++ ke ++ n ++ brks e ++ r) by (now rewrite <- !app_assoc).
      assert (Nt : no_break (ke ++ n ++ brks e ++ r)) by (apply (keyword_head_no_break _ "end:"%string); auto).
      destruct (IH Hits n (ke ++ n ++ brks e ++ r) [] [] j) as [I1 I2]; [|exact Nt|apply br_end; [easy|now apply brks_after]|].
      + intros x y ->. destruct (F (tagged false b ++ x) (y ++ tagged false e)) as [F1 F2]; [now rewrite <- !app_assoc|].
        apply all_lf_app in F1 as [F1 F3]. split; [easy|]. destruct (name_tidy ke n Hn) as [T3 T4]; [now exists "end:"%string; auto|].
        rewrite app_assoc. apply line_no_crlf; try easy. exact (proj1 (brks_lf false e) F3).
      + cbn [wtree_read]. rewrite !app_nil_r in I2. apply (cr_comp kb n _ (s ++ ke ++ n ++ brks e ++ r)); try easy; [now apply brks_ends|].
        apply brks_after. now apply self_after.
    - easy.
    - intros l ys its fs s T Y M IH O n tail ps cs r F N B. inversion O as [|? ? Ol Oi]; subst. inversion Ol as [? Ol'|]; subst.
      destruct (IH Oi n tail ps cs r (fine_right _ _ _ F) N B) as [I1 I2]. destruct ys as [|y ys]; [easy|].
      unfold brks. cbn [map concat flat_map app]. fold (brks ys). rewrite <- !app_assoc.
      destruct (start_mixed l y (brks ys ++ s ++ tail) Ol' T) as (S1 & S2 & S3). split; [easy|].
      assert (A : after_breaks (brks ys ++ s ++ tail) (s ++ tail)) by (now apply brks_after, self_after).
      apply (br_prop n _ _ (s ++ tail)); [exact S1|exact S2| |now apply line_longer|exact I2]. apply line_mixed; try easy.
      intros V ->. cbn [tagged app] in F. rewrite V in F. destruct (F [] _ eq_refl) as [F1 F2]. apply all_lf_app in F1 as [F1 F3].
      apply brks_no_crlf; [|now apply (proj2 mixed_no_crlf its fs)]. intros I. apply F1. rewrite map_map. cbn [snd]. now rewrite map_id.
    - intros t its fs s fs' s' M IH M' IH' O n tail ps cs r F N B. inversion O as [|? ? Ot Oi]; subst. inversion Ot as [|? Ot']; subst.
      destruct (IH' Oi n tail ps cs r (fine_right _ _ _ F) N B) as [I1 I2]. rewrite <- app_assoc. split.
      + inversion M; subst. rewrite <- !app_assoc. now apply (keyword_head_no_break _ "begin:"%string); auto.
      + cbn [flat_map app]. apply (br_comp n _ _ (s' ++ tail)); [|easy]. apply IH; [easy| |now apply self_after].
        intros x y ->. destruct (F x (y ++ fs')) as [F1 F2]; [now rewrite <- app_assoc|]. apply all_lf_app in F1 as [F1 F3]. split; [easy|].
        now apply (proj2 mixed_no_crlf its fs').
  Qed.

  (** ** Not reading *)

  Definition faulty (fs : list (bool * style)) (r : str) : Prop :=
    exists a b, fs = a ++ (true, Lf) :: b /\ ~ In (true, Lf) a /\ (~ all_lf b \/ has_crlf r).
  Lemma has_crlf_dec : forall s, has_crlf s \/ ~ has_crlf s.
  Proof.
    induction s as [|c s IH]; [right; intros (a & b & E); destruct a; discriminate E|]. destruct IH as [H|H]; [left; now apply (crlf_right [c])|].
    destruct (N.eq_dec c CR) as [->|C]; [destruct s as [|d s]|].
    - right. intros (a & b & E). destruct a as [|x a]; [discriminate E|]. injection E as _ E. destruct a; discriminate E.
    - destruct (N.eq_dec d LF) as [->|D]; [left; now exists [], s|]. right. intros (a & b & E). destruct a as [|x a]; [now injection E|].
      injection E as _ E. apply H. now exists a, b.
    - right. intros (a & b & E). destruct a as [|x a]; [now injection E|]. injection E as _ E. apply H. now exists a, b.
  Qed.
  Lemma first_crlf : forall s, has_crlf s -> exists a b, s = a ++ [CR; LF] ++ b /\ ~ has_crlf a.
  Proof.
    induction s as [s IH] using (well_founded_induction (well_founded_ltof _ (@length N))). unfold ltof in IH.
    intros (a & b & ->). destruct (has_crlf_dec a) as [H|H].
    - destruct (IH a) as (x & y & -> & X); [rewrite app_length; cbn; lia|easy|]. exists x, (y ++ [CR; LF] ++ b). split; [now rewrite <- !app_assoc|easy].
    - now exists a, b.
  Qed.
  Lemma skip_tagged : forall x fs a b, ~ In (true, Lf) x -> x ++ fs = a ++ (true, Lf) :: b -> exists a', a = x ++ a' /\ fs = a' ++ (true, Lf) :: b.
  Proof.
    intros x fs a b X E. apply TruncProofs.app_cases in E as [(z & -> & Eb)|(z & -> & -> & Z)].
    - destruct z as [|c z]; [exists []; split; [now rewrite !app_nil_r|easy]|]. exfalso. injection Eb as <- _. apply X. rewrite in_app_iff. right. now left.
    - exists z. now split.
  Qed.
  Lemma tagged_plain : forall ys, ~ In (true, Lf) (tagged false ys).
  Proof.
    intros [|y ys] H; [easy|]. destruct H as [H|H]; [discriminate H|]. apply in_map_iff in H as (z & H & _). discriminate H.
  Qed.
  Lemma begin_named : forall kb x p j, map lower_ascii kb = lit "begin:" -> item_reads (kb ++ x) p j -> map lower_ascii (Parser.pr_name p) = lit "begin".
  Proof.
    intros kb x p j K (j' & (_ & rest & _ & D) & _).
    assert (Q : exists k1, kb = k1 ++ [COLON] /\ map lower_ascii k1 = lit "begin").
    { destruct kb as [|c1 [|c2 [|c3 [|c4 [|c5 [|c6 [|]]]]]]]; try discriminate K. exists [c1; c2; c3; c4; c5].
      cbn [map] in K. injection K as L1 L2 L3 L4 L5 L6. split; [|cbn [map]; rewrite L1, L2, L3, L4, L5; reflexivity].
      assert (c6 = COLON) as ->; [|reflexivity]. change COLON with 58%N. unfold lower_ascii, is_upper, in_range in L6.
      match type of L6 with (if ?b then _ else _) = _ => destruct b eqn:Z end; lia. }
    destruct Q as (k1 & -> & L). assert (K1 : name_ok k1).
    { apply Forall_forall. intros c I. right. assert (H : In (lower_ascii c) (lit "begin")) by (rewrite <- L; now apply in_map).
      cbn in H. unfold is_alnum, is_digit, is_lower_ascii. unfold lower_ascii in H. unfold is_upper, in_range in *.
      match type of H with context [if ?b then _ else _] => destruct b eqn:Z end; destruct (c <? 128)%N eqn:Y; lia. }
    assert (C1 : ~ key_char COLON) by (intros Z; apply is_key_char_spec in Z; discriminate Z).
    assert (N1 : name_ends (COLON :: x)) by (intros c r Q; now injection Q as <- _).
    rewrite <- app_assoc in D. cbn [app] in D.
    destruct D as [(w & k & qs & t & v & E & Wh & Kk & P & _ & ->)|(_ & k & E & Kk & M & ->)]; cbn [Parser.pr_name].
    - destruct w as [|c w].
      + cbn [app] in E. apply name_cut in E as [-> _]; try easy. now apply (params_end qs).
      + exfalso. inversion Wh as [|? ? W' _]; subst. destruct k1 as [|d k1]; [discriminate L|]. injection E as -> _. inversion K1 as [|? ? K' _]; subst. now apply white_key in W'.
    - apply name_cut in E as [-> _]; easy.
  Qed.
  Lemma begin_same : forall kb n x j kb' m i j', map lower_ascii kb = lit "begin:" -> name_ok n -> name_ends x -> after_breaks x j ->
    map lower_ascii kb' = lit "begin:" -> name_ok m -> name_ends i -> after_breaks i j' -> kb ++ n ++ x = kb' ++ m ++ i -> m = n /\ j' = j.
  Proof.
    intros kb n x j kb' m i j' K1 N1 M1 A1 K2 N2 M2 A2 E.
    pose proof (begin_line (E := verror) kb n x j K1 N1 M1 A1) as P1. pose proof (begin_line (E := verror) kb' m i j' K2 N2 M2 A2) as P2.
    rewrite E, P2 in P1. now injection P1.
  Qed.
  Lemma mixed_start : forall its fs s tail, mixed_items its fs s -> Forall iok its -> no_break tail -> no_break (s ++ tail).
  Proof.
    intros its fs s tail M O N. destruct M as [|l ys its fs s T Y M|t its fs s fs' s' M M']; [easy| |].
    - inversion O as [|? ? Ol Oi]; subst. inversion Ol as [? Ol'|]; subst. destruct ys as [|y ys]; [easy|]. unfold brks. cbn [map concat].
      rewrite <- !app_assoc. now apply start_mixed.
    - inversion M; subst. rewrite <- !app_assoc. now apply (keyword_head_no_break _ "begin:"%string); auto.
  Qed.
  Lemma line_name : forall l, wline_ok CrLf l -> map lower_ascii (Parser.pr_name (wline_read l)) <> lit "begin".
  Proof. intros [k qs v|k] O; cbn [wline_read Parser.pr_name]; [destruct O as ((_ & _ & _ & _ & O) & _)|destruct O as ((_ & _ & _ & _ & O) & _)]; exact O. Qed.
  Lemma lines_named : forall its p, Forall iok its -> In p (lines_of its) -> map lower_ascii (Parser.pr_name p) <> lit "begin".
  Proof.
    intros its p O I. apply in_flat_map in I as (x & I & J). rewrite Forall_forall in O. specialize (O x I). destruct O as [l O|t O]; [|easy].
    destruct J as [<-|[]]. now apply line_name.
  Qed.
  Lemma mixed_garbled :
    (forall t fs s, mixed t fs s -> wtree_ok CrLf t -> forall r c j, faulty fs r -> comp_reads (s ++ r) c j -> c <> wtree_read t)
    /\ (forall its fs s, mixed_items its fs s -> Forall iok its -> forall n tail ps' cs' r, faulty fs tail -> no_break tail ->
        (forall p, In p ps' -> map lower_ascii (Parser.pr_name p) <> lit "begin") ->
        ~ body_reads n (s ++ tail) (lines_of its ++ ps') (trees_of its ++ cs') r).
  Proof.
    apply mixed_both.
    - intros n its kb ke b e fs s Kb Ke B E M IH O r c j (x & y & Q & X & F) C ->. inversion O as [? ? Hn Hits]; subst.
      replace ((kb ++ n ++ brks b ++ s ++ ke ++ n ++ brks e) ++ r) with (kb ++ n ++ brks b ++ s ++ ke ++ n ++ brks e ++ r) in C by (now rewrite <- !app_assoc).
      assert (Nt : no_break (ke ++ n ++ brks e ++ r)) by (apply (keyword_head_no_break _ "end:"%string); auto).
      pose proof (mixed_start _ _ _ _ M Hits Nt) as Ns.
      cbn [wtree_read] in C. inversion C as [kb' m i j' ps cs r' K' M' Ne A' B' E1 E2 E3]; subst.
      destruct (begin_same kb n (brks b ++ s ++ ke ++ n ++ brks e ++ r) (s ++ ke ++ n ++ brks e ++ r) kb' n i j') as [_ ->]; try easy;
        [now apply brks_ends|now apply brks_after, self_after|].
      revert B'. rewrite <- (app_nil_r (lines_of its)), <- (app_nil_r (trees_of its)). apply IH; try easy.
      apply skip_tagged in Q as (a' & -> & Q); [|apply tagged_plain].
      apply TruncProofs.app_cases in Q as [(z & -> & Eb)|(z & -> & Eb & Z)].
      + destruct z as [|f z].
        * exfalso. cbn [app] in Eb. apply (tagged_plain e). rewrite <- Eb. now left.
        * injection Eb as <- ->. exists a', z. split; [easy|]. split; [intros I; apply X; rewrite in_app_iff; now right|].
          destruct F as [F|F]; [|right; do 3 apply crlf_right; exact F].
          destruct (in_dec (fun p q : style => ltac:(decide equality)) CrLf (map snd z)) as [I|I]; [left; intros L; now apply L|].
          right. do 2 apply crlf_right. apply crlf_left. apply (tagged_crlf false).
          destruct (in_dec (fun p q : style => ltac:(decide equality)) CrLf (map snd (tagged false e))) as [I'|I']; [easy|]. exfalso. apply F. now apply all_lf_app.
      + exfalso. apply (tagged_plain e). rewrite Eb, in_app_iff. right. now left.
    - intros _ n tail ps' cs' r (a & b & Q & _). destruct a; discriminate Q.
    - intros l ys its fs s T Y M IH O n tail ps' cs' r (a & b & Q & X & F) N P B. inversion O as [|? ? Ol Oi]; subst. inversion Ol as [? Ol'|]; subst.
      destruct ys as [|y ys]; [easy|]. unfold brks in B. cbn [map concat flat_map app] in B. fold (brks ys) in B. rewrite <- !app_assoc in B.
      destruct (start_mixed l y (brks ys ++ s ++ tail) Ol' T) as (S1 & S2 & S3).
      pose proof (mixed_start _ _ _ tail M Oi N) as Ns.
      cbn [tagged app] in Q. destruct a as [|f a].
      + injection Q as V -> Q. subst b. destruct l as [k qs v|k]; [|discriminate V]. 
        assert (H : has_crlf (brks ys ++ s ++ tail)).
        { destruct F as [F|F]; [|now do 2 apply crlf_right].
          destruct (in_dec (fun p q : style => ltac:(decide equality)) CrLf ys) as [I|I]; [now apply crlf_left, brks_crlf|].
          apply crlf_right, crlf_left. apply (proj2 mixed_crlf its fs); [easy|].
          destruct (in_dec (fun p q : style => ltac:(decide equality)) CrLf (map snd fs)) as [I'|I']; [easy|]. exfalso. apply F. apply all_lf_app. split; [|easy].
          unfold all_lf. rewrite map_map. cbn [snd]. now rewrite map_id. }
        destruct (first_crlf _ H) as (R1 & R2 & ER & NR). rewrite ER in *. destruct T as [T1 T2].
        assert (O2 : wline_ok CrLf (LValue k qs (v ++ LF :: R1))).
        { destruct Ol' as (O1 & O2 & O3). split; [easy|]. split; [easy|]. apply (no_crlf_app v [LF] R1); [|easy|easy].
          assert (T1' : ~ In LF v) by (intros I; apply T1; cbn [wline_text]; rewrite !in_app_iff; right; right; now right).
          assert (T2' : forall x, v <> x ++ [CR]).
          { intros x ->. apply (T2 (k ++ concat (map wparam_text qs) ++ COLON :: x)). cbn [wline_text]. rewrite <- !app_assoc. reflexivity. }
          pose proof (line_no_crlf v [Lf] [] T1' T2') as L. apply L; try easy; [intros [I|[]]; discriminate I|].
          intros (p & q & E). destruct p; discriminate E. }
        destruct (after_breaks_ex R2) as (j2 & A2). pose proof (line_item _ R2 j2 O2 A2) as I2.
        assert (ET : wline_text (LValue k qs (v ++ LF :: R1)) ++ [CR; LF] ++ R2 = wline_text (LValue k qs v) ++ [LF] ++ R1 ++ [CR; LF] ++ R2).
        { cbn [wline_text]. rewrite <- !app_assoc. cbn [app]. rewrite <- !app_assoc. reflexivity. }
        rewrite ET in I2. cbn [brk] in *. remember (wline_text (LValue k qs v) ++ [LF] ++ R1 ++ [CR; LF] ++ R2) as i eqn:Ei. clear Ei ET.
        inversion B as [? ke x ? E A'|? ? c' j' ? ? ? C' B'|? ? p j' ? ? ? N1 N2 I' Nj B'|? ? p j' ? ? ? S' I' B']; subst.
        * exfalso. apply S2. apply (proj1 reads_shrink _ _ _ C').
        * destruct (item_one _ _ _ _ _ I2 I') as [Z _]. cbn [wline_read] in Z. injection Z as Z. now apply decode_longer in Z.
        * exfalso. apply S2. now apply reads_shrink in S'.
      + injection Q as <- Q. assert (V : valued l = true -> y = Lf -> False) by (intros V ->; apply X; rewrite V; now left).
        assert (A : after_breaks (brks ys ++ s ++ tail) (s ++ tail)) by (now apply brks_after, self_after).
        pose proof (line_mixed l y (brks ys ++ s ++ tail) (s ++ tail) Ol' T (fun v w => False_ind _ (V v w)) A) as I2.
        assert (F' : faulty fs tail).
        { apply skip_tagged in Q as (a' & -> & ->); [|intros I; apply in_map_iff in I as (z & I & _); discriminate I].
          exists a', b. split; [easy|]. split; [|easy]. intros I. apply X. right. rewrite in_app_iff. now right. }
        remember (wline_text l ++ brk y ++ brks ys ++ s ++ tail) as i eqn:Ei. clear Ei.
        inversion B as [? ke x ? E A'|? ? c' j' ? ? ? C' B'|? ? p j' ? ? ? N1 N2 I' Nj B'|? ? p j' ? ? ? S' I' B']; subst.
        * exfalso. apply S2. apply (proj1 reads_shrink _ _ _ C').
        * destruct (item_one _ _ _ _ _ I2 I') as [_ <-]. now apply (IH Oi n tail ps' cs' r).
        * exfalso. apply S2. now apply reads_shrink in S'.
    - intros t its fs s fs' s' M IH M' IH' O n tail ps' cs' r (a & b & Q & X & F) N P B. inversion O as [|? ? Ot Oi]; subst. inversion Ot as [|? Ot']; subst.
      rewrite <- app_assoc in B. cbn [flat_map app] in B. pose proof (mixed_start _ _ _ tail M' Oi N) as Ns.
      assert (Bg : begins (s ++ s' ++ tail)) by (inversion M; subst; rewrite <- !app_assoc; now exists kb; eexists).
      inversion B as [? ke x ? E A'|? ? c' j' ? ? ? C' B'|? ? p j' ? ? ? N1 N2 I' Nj B' E1 E2 E3 E4|? ? p j' ? ? ? S' I' B' E1 E2 E3 E4]; subst; [|easy|].
      + apply TruncProofs.app_cases in Q as [(z & -> & Eb)|(z & -> & Eb & Z)].
        * destruct z as [|f z].
          -- cbn [app] in Eb. rewrite app_nil_r in *.
             assert (Fi : fine a (s' ++ tail)) by (intros u w ->; exfalso; apply X; rewrite in_app_iff; right; now left).
             pose proof (proj1 mixed_reads _ _ _ M Ot' (s' ++ tail) (s' ++ tail) Fi (self_after _ Ns)) as R.
             destruct (comp_one _ _ _ _ _ R C') as [_ <-]. revert B'. apply IH'; try easy. exists [], b. rewrite <- Eb. now split; [|split; [intros []|]].
          -- injection Eb as <- ->. revert C'. intros C'. apply (IH Ot' (s' ++ tail) (wtree_read t) j'); try easy.
             exists a, z. split; [easy|]. split; [easy|]. destruct F as [F|F]; [|right; now apply crlf_right].
             destruct (in_dec (fun p q : style => ltac:(decide equality)) CrLf (map snd z)) as [I|I]; [left; intros L; now apply L|].
             right. apply crlf_left. apply (proj2 mixed_crlf its fs'); [easy|].
             destruct (in_dec (fun p q : style => ltac:(decide equality)) CrLf (map snd fs')) as [I'|I']; [easy|]. exfalso. apply F. now apply all_lf_app.
        * assert (Fi : fine fs (s' ++ tail)).
          { intros u w ->. exfalso. apply X. rewrite !in_app_iff. left. right. now left. }
          pose proof (proj1 mixed_reads _ _ _ M Ot' (s' ++ tail) (s' ++ tail) Fi (self_after _ Ns)) as R.
          destruct (comp_one _ _ _ _ _ R C') as [_ <-]. revert B'. apply IH'; try easy.
          exists z, b. split; [easy|]. split; [|easy]. intros I. apply X. rewrite in_app_iff. now right.
      + assert (Hp : map lower_ascii (Parser.pr_name p) = lit "begin").
        { inversion M; subst. rewrite <- !app_assoc in I'. now apply begin_named in I'. }
        assert (In p (lines_of its ++ ps')) as I by (rewrite <- E3; now left). apply in_app_iff in I as [I|I]; [now apply lines_named in I|now apply P in I].
  Qed.
  Theorem mixed_exact : forall t fs s, wtree_ok CrLf t -> mixed t fs s -> (read_component s = Ok (wtree_read t) <-> lf_final fs).
  Proof.
    intros t fs s O M. assert (Nb : no_break s) by (inversion M; subst; now apply (keyword_head_no_break _ "begin:"%string); auto).
    assert (N0 : ~ has_crlf []) by (intros (a & b & E); destruct a; discriminate E).
    rewrite read_component_exact. split.
    - intros (r & j & A & C). apply (breaks_one s j s) in A as ->; [|now apply self_after]. intros a b E L.
      assert (Q : forall fs, (exists a b, fs = a ++ (true, Lf) :: b /\ In CrLf (map snd b)) ->
        exists a b, fs = a ++ (true, Lf) :: b /\ ~ In (true, Lf) a /\ In CrLf (map snd b)).
      { clear. induction fs as [|f fs IH]; intros (a & b & E & I); [destruct a; discriminate E|]. destruct a as [|g a].
        - injection E as -> ->. exists [], b. auto.
        - injection E as <- ->. destruct f as [[] []]; try (destruct IH as (x & y & -> & X & Y); [now exists a, b|]; eexists (_ :: x), y; split; [reflexivity|]; split; [|easy]; intros [Z|Z]; [discriminate Z|easy]).
          exists [], (a ++ (true, Lf) :: b). split; [easy|]. split; [intros []|]. rewrite map_app, in_app_iff. right. now right. }
      destruct (Q fs) as (x & y & -> & X & Y); [now exists a, b|].
      apply (proj1 mixed_garbled t _ s M O [] (wtree_read t) r); [|now rewrite app_nil_r|easy]. exists x, y. split; [easy|]. split; [easy|]. left. intros Z. now apply Z.
    - intros L. exists []. exists s. split; [now apply self_after|]. rewrite <- (app_nil_r s). apply (proj1 mixed_reads t fs s M O [] []).
      + intros a b ->. split; [|easy]. now apply (L a b).
      + apply self_after. apply no_break_nil.
  Qed.
End Mixed.
