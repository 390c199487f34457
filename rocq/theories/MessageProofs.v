(** Error messages show the right line and column. *)
From Verif Require Import Str StrFacts Spec ValueTypes Property Chrono DateTime Component Calendar Nom Parser SpecDoc
  FoldProofs ParserProofs TotalProofs CalProofs ErrorProofs DocProofs Fold ErrorText SpecError.
From Coq Require Import ZifyBool ZifyNat ZifyN.

Definition not_lf (c : char) : bool := negb (c =? LF)%N.
Lemma not_lf_all : forall s, forallb not_lf s = true <-> ~ In LF s.
Proof.
  intros s. rewrite forallb_forall. split.
  - intros H I. apply H in I. now vm_compute in I.
  - intros H c I. unfold not_lf. destruct (c =? LF)%N eqn:E; [apply N.eqb_eq in E as ->; easy|easy].
Qed.

Lemma before_app : forall p sub, before (p ++ sub) sub = p.
Proof.
  intros p sub. unfold before. rewrite app_length. replace (length p + length sub - length sub) with (length p) by lia.
  rewrite firstn_app, Nat.sub_diag, firstn_all, firstn_O. apply app_nil_r.
Qed.

Lemma last_line_spec : forall s, exists above, s = above ++ last_line s
  /\ (above = [] \/ exists x, above = x ++ [LF]) /\ ~ In LF (last_line s).
Proof.
  intros s. unfold last_line. destruct (span _ (rev s)) as [a b] eqn:E. apply span_spec in E as (E & F & S). cbn [fst].
  exists (rev b). repeat apply conj.
  - rewrite <- rev_app_distr, <- E. now rewrite rev_involutive.
  - destruct b as [|c b]; [now left|right]. cbn in S. exists (rev b). cbn [rev]. f_equal. f_equal.
    destruct (N.eqb_spec c LF) as [->|]; [easy|easy].
  - rewrite <- in_rev. now apply not_lf_all.
Qed.

Lemma count_lf_occ : forall s, count_lf s = count_occ N.eq_dec s LF.
Proof.
  induction s as [|c s IH]; [easy|]. unfold count_lf in *. cbn [filter count_occ].
  destruct (N.eq_dec c LF) as [->|N].
  - rewrite N.eqb_refl. cbn [length]. now rewrite IH.
  - replace (c =? LF)%N with false by (symmetry; now apply N.eqb_neq). exact IH.
Qed.
Lemma count_none : forall s, ~ In LF s -> count_occ N.eq_dec s LF = 0.
Proof. intros s H. now apply count_occ_not_In. Qed.

Lemma trim_start_spec : forall s, exists w, s = w ++ trim_start s /\ Forall (fun c => is_ws c = true) w
  /\ (trim_start s = [] \/ exists c r, trim_start s = c :: r /\ is_ws c = false).
Proof.
  induction s as [|c s (w & E & F & H)]; [exists []; repeat split; [constructor|now left]|]. cbn [trim_start].
  destruct (is_ws c) eqn:W.
  - exists (c :: w). repeat split; [cbn [app]; now rewrite <- E|now constructor|easy].
  - exists []. repeat split; [constructor|]. right. now exists c, s.
Qed.
Lemma trim_end_spec : forall s, trimmed s (trim_end s).
Proof.
  intros s. unfold trim_end. destruct (trim_start_spec (rev s)) as (w & E & F & H). split.
  - exists (rev w). split; [now rewrite <- rev_app_distr, <- E, rev_involutive|]. now apply Forall_rev.
  - destruct H as [->|(c & r & -> & W)]; [now left|right]. now exists (rev r), c.
Qed.
Lemma shown_line_spec : forall s, exists full, line_head s full /\ trimmed full (shown_line s).
Proof.
  intros s. unfold shown_line. destruct (span _ s) as [a b] eqn:E. apply span_spec in E as (E & F & S). cbn [fst].
  exists a. split; [|apply trim_end_spec]. split; [now apply not_lf_all|]. destruct b as [|c b].
  - left. now rewrite app_nil_r in E.
  - right. exists b. cbn in S. destruct (N.eqb_spec c LF) as [->|]; easy.
Qed.

Lemma position_found : forall p sub, let input := p ++ sub in
  position octets input sub (count_lf p + 1) (blen (last_line p) + 1) (shown_line (last_line p ++ sub)).
Proof.
  intros p sub. destruct (last_line_spec p) as (above & E & A & N). destruct (shown_line_spec (last_line p ++ sub)) as (full & L & T).
  exists above, (last_line p), full. repeat apply conj.
  - rewrite app_assoc. now rewrite <- E.
  - easy.
  - easy.
  - rewrite count_lf_occ. rewrite E at 1. rewrite count_occ_app, (count_none _ N). lia.
  - rewrite octets_blen. lia.
  - apply L.
  - apply L.
  - apply T.
  - apply T.
Qed.

(** A position is unique. *)
Lemma split_unique : forall a h a' h' : str, (a = [] \/ exists x, a = x ++ [LF]) -> ~ In LF h ->
  (a' = [] \/ exists x, a' = x ++ [LF]) -> ~ In LF h' -> a ++ h = a' ++ h' -> a = a' /\ h = h'.
Proof.
  assert (W : forall a h a' h' : str, ~ In LF h -> (a' = [] \/ exists x, a' = x ++ [LF]) -> a ++ h = a' ++ h' ->
    length a <= length a' -> a = a' /\ h = h').
  { intros a h a' h' N A E L. assert (exists m, a' = a ++ m /\ h = m ++ h') as (m & -> & ->).
    { clear N A. revert a' E L. induction a as [|c a IH]; intros a' E L; [now exists a'|]. destruct a' as [|d a']; [now cbn in L|].
      cbn [app] in E. injection E as -> E. cbn [length] in L. destruct (IH a' E) as (m & -> & ->); [lia|]. now exists m. }
    destruct m as [|c m]; [now rewrite app_nil_r|]. exfalso. destruct A as [A|(x & A)].
    - now destruct a.
    - assert (In LF (c :: m)); [|apply N, in_app_iff; now left].
      destruct (exists_last (l := c :: m) ltac:(easy)) as (y & z & Q). rewrite Q in A |- *. rewrite app_assoc in A.
      apply app_inj_tail in A as [_ ->]. apply in_app_iff. right. now left. }
  intros a h a' h' A N A' N' E. destruct (Nat.le_ge_cases (length a) (length a')).
  - now apply W.
  - destruct (W a' h' a h) as [-> ->]; easy.
Qed.
Lemma line_head_unique : forall s l l', line_head s l -> line_head s l' -> l = l'.
Proof.
  intros s l. revert s. induction l as [|c l IH]; intros s l' (N & H) (N' & H').
  - destruct l' as [|d l']; [easy|]. exfalso. destruct H as [->|(r & ->)].
    + destruct H' as [H'|(r & H')]; discriminate H'.
    + destruct H' as [H'|(r' & H')]; cbn [app] in H'; injection H' as <- _; apply N'; now left.
  - destruct l' as [|d l'].
    + exfalso. destruct H' as [->|(r & ->)].
      * destruct H as [H|(r & H)]; discriminate H.
      * destruct H as [H|(r' & H)]; cbn [app] in H; injection H as <- _; apply N; now left.
    + assert (exists s', s = c :: s' /\ c = d /\ (s' = l \/ exists r, s' = l ++ LF :: r) /\ (s' = l' \/ exists r, s' = l' ++ LF :: r))
        as (s' & _ & <- & K & K').
      { destruct H as [->|(r & ->)].
        - exists l. destruct H' as [H'|(r' & H')]; cbn [app] in H'; injection H' as <- ->; repeat split; try (now left); now right; exists r'.
        - exists (l ++ LF :: r). destruct H' as [H'|(r' & H')]; cbn [app] in H'; injection H' as <- H'; repeat split; try (now right; exists r).
          + now left.
          + right. now exists r'. }
      f_equal. apply (IH s'); split; try easy; intros I; [apply N|apply N']; now right.
Qed.
Lemma trimmed_unique : forall l t t', trimmed l t -> trimmed l t' -> t = t'.
Proof.
  assert (W : forall t w t' w' : str, t ++ w = t' ++ w' -> Forall (fun c => is_ws c = true) w ->
    (t' = [] \/ exists u c, t' = u ++ [c] /\ is_ws c = false) -> length t <= length t' -> t = t').
  { intros t w t' w' E F A L. assert (exists m, t' = t ++ m /\ w = m ++ w') as (m & -> & ->).
    { clear F A. revert t' E L. induction t as [|c t IH]; intros t' E L; [now exists t'|]. destruct t' as [|d t']; [now cbn in L|].
      cbn [app] in E. injection E as -> E. cbn [length] in L. destruct (IH t' E) as (m & -> & ->); [lia|]. now exists m. }
    destruct m as [|c m]; [now rewrite app_nil_r|]. exfalso. apply Forall_app in F as [F _]. destruct A as [A|(u & d & A & D)].
    - now destruct t.
    - destruct (exists_last (l := c :: m) ltac:(easy)) as (y & z & Q). rewrite Q in A, F. rewrite app_assoc in A.
      apply app_inj_tail in A as [_ <-]. apply Forall_app in F as [_ F]. inversion F. congruence. }
  intros l t t' ((w & E & F) & A) ((w' & E' & F') & A'). rewrite E in E'. destruct (Nat.le_ge_cases (length t) (length t')).
  - now apply (W t w t' w').
  - symmetry. now apply (W t' w' t w).
Qed.
Lemma position_unique : forall w input sub r c l r' c' l', position w input sub r c l -> position w input sub r' c' l' ->
  r = r' /\ c = c' /\ l = l'.
Proof.
  intros w input sub r c l r' c' l' (a & h & f & E & A & N & -> & -> & L & T) (a' & h' & f' & E' & A' & N' & -> & -> & L' & T').
  rewrite E in E'. rewrite !app_assoc in E'. apply app_inv_tail in E'. apply split_unique in E' as [<- <-]; try easy.
  repeat split. rewrite (line_head_unique _ _ _ L' L) in T'. now apply (trimmed_unique f).
Qed.

Lemma number_dec : forall n, number (dec (N.of_nat n)) n.
Proof.
  intros n. destruct (dec_spec (N.of_nat n)) as (NE & D & V & Lo & _). repeat apply conj.
  - apply Forall_forall. intros c I. rewrite forallb_forall in D. now apply is_digit_range, D.
  - easy.
  - intros H. destruct (dec (N.of_nat n)) as [|c [|d r]] eqn:E; [easy|cbn in H; now subst|]. exfalso. cbn [hd] in H. subst c.
    specialize (Lo (length (d :: r))). cbn [length] in Lo. rewrite <- V in Lo.
    assert (dec_val (48%N :: d :: r) = dec_val (d :: r)) as Q by (apply (dec_val_zeros 1)).
    rewrite Q in Lo. assert (B : (dec_val (d :: r) < 10 ^ N.of_nat (length (d :: r)))%N).
    { apply dec_val_bound. cbn [forallb] in D |- *. lia. }
    cbn [length] in B. specialize (Lo ltac:(lia) B). lia.
  - assert (G : forall s a b, forallb is_digit s = true -> N.to_nat a = b ->
      N.to_nat (fold_left (fun a c => (a * 10 + (c - 48))%N) s a) = fold_left (fun a c => 10 * a + (N.to_nat c - 48)) s b).
    { clear. induction s as [|c s IH]; intros a b D E; [easy|]. cbn [fold_left forallb] in *. apply andb_true_iff in D as [D1 D2].
      apply IH; [easy|]. apply is_digit_range in D1. lia. }
    rewrite <- (G _ 0%N 0 D eq_refl). fold (dec_val (dec (N.of_nat n))). rewrite V. lia.
Qed.

Lemma kind_shown : forall k, vkind_name k = lit (shown_kind k).
Proof. now intros [[]|c]. Qed.
Lemma convert_error_spec : forall input e, Forall (fun l => suffix (fst l) input) e -> message_for octets input e (message input e).
Proof.
  intros input e H. unfold message, convert_error. eexists. split; [reflexivity|]. split.
  - intros NE. generalize 0. induction H as [|[sub w] e (p & S) F IH]; intros k; [constructor|]. cbn [fst] in S.
    cbn [error_entries error_entry]. destruct input as [|c0 i0] eqn:Hi; [easy|]. rewrite <- Hi in *. rewrite S, before_app.
    rewrite kind_shown. unfold caret. rewrite <- !app_assoc. cbn [app]. apply E_cons with (row := count_lf p + 1).
    + apply position_found.
    + apply number_dec.
    + apply number_dec.
    + rewrite <- S. apply IH.
  - intros ->. generalize 0. induction H as [|[sub w] e S F IH]; intros k; [constructor|]. cbn [error_entries error_entry].
    rewrite kind_shown. rewrite <- !app_assoc. cbn [app]. constructor; [apply number_dec|apply IH].
Qed.

Lemma reported_map_err : forall A i (r : result A verror), (forall e, r = Err e -> Forall (fun l => suffix (fst l) i) e) ->
  reported octets i r (rmap_err (message i) r).
Proof.
  intros A i r H. split.
  - intros a. destruct r; cbn [rmap_err]; split; intros Q; try discriminate Q; now injection Q as ->.
  - intros m Q. destruct r as [a|e|]; try discriminate Q. cbn [rmap_err] in Q. injection Q as <-. exists e.
    split; [easy|]. now apply convert_error_spec, H.
Qed.
Lemma reported_map : forall A B (f : A -> B) i r r', reported octets i r r' ->
  reported octets i (rmap f r) (rmap f r').
Proof.
  intros A B f i r r' (H1 & H2). split.
  - intros b. split; intros Q.
    + destruct r' as [a|e|] eqn:E; try discriminate Q. cbn [rmap] in Q. injection Q as <-. destruct (H1 a) as [K _].
      now rewrite (K eq_refl).
    + destruct r as [a|e|] eqn:E; try discriminate Q. cbn [rmap] in Q. injection Q as <-. destruct (H1 a) as [_ K].
      now rewrite (K eq_refl).
  - intros m Q. destruct r' as [a|e|] eqn:E; try discriminate Q. cbn [rmap] in Q. injection Q as <-.
    destruct (H2 e eq_refl) as (e' & -> & M). now exists e'.
Qed.
Lemma messages : forall {U : Unicode} i,
  reported octets i (read_calendar i) (read_calendar_s i)
  /\ reported octets i (read_components i) (read_components_s i)
  /\ reported octets i (read_component i) (read_component_s i)
  /\ reported octets i (read_property i) (read_property_s i)
  /\ reported octets i (read_parameter i) (read_parameter_s i)
  /\ reported octets (unfold i) (calendar_from_str i) (calendar_from_str_s i)
  /\ reported octets (unfold i) (cc_from_str i) (cc_from_str_s i)
  /\ reported octets i (property_from_str i) (property_from_str_s i).
Proof.
  intros U i. destruct (errors_inside i) as (H1 & H2 & H3 & H4 & H5 & _). destruct (errors_inside (unfold i)) as (_ & K2 & K3 & _).
  refine (conj _ (conj _ (conj _ (conj _ (conj _ (conj _ (conj _ _))))))); try (now apply reported_map_err); apply reported_map; now apply reported_map_err.
Qed.

(** For ASCII texts, octets are characters. *)
Lemma ascii_octets : forall s, Forall (fun c => (c < 128)%N) s -> octets s = length s.
Proof.
  intros s H. rewrite octets_blen. induction H as [|c s L F IH]; [easy|]. cbn [blen length]. unfold utf8_len.
  replace (c <? 128)%N with true by lia. lia.
Qed.
Lemma position_ascii : forall input sub r c l, Forall (fun c => (c < 128)%N) input ->
  position octets input sub r c l -> position (@length N) input sub r c l.
Proof.
  intros input sub r c l A (a & h & f & E & R). exists a, h, f. subst input. apply Forall_app in A as [_ A].
  apply Forall_app in A as [A _]. rewrite (ascii_octets h A) in R. easy.
Qed.
Lemma reported_ascii : forall A i (r : result A verror) r', Forall (fun c => (c < 128)%N) i ->
  reported octets i r r' -> reported (@length N) i r r'.
Proof.
  intros A i r r' H (R1 & R2). split; [easy|]. intros m E. destruct (R2 m E) as (e & Q & t & -> & M & Z). exists e. split; [easy|].
  exists t. split; [easy|]. split; [|easy]. intros NE. specialize (M NE). clear - M H.
  induction M as [|k sub w e row col l nk nrow text P N1 N2 M IH]; [constructor|]. eapply E_cons; eauto. now apply position_ascii.
Qed.

(** A number below ten has one digit. *)
Lemma number_short : forall s n, number s n -> n < 10 -> length s = 1.
Proof.
  intros s n (D & NE & Z & V) L. destruct s as [|c [|d r]]; [easy|easy|]. exfalso. cbn [hd] in Z.
  assert (G : forall s a, a <= fold_left (fun a c => 10 * a + (N.to_nat c - 48)) s a).
  { clear. induction s as [|c s IH]; intros a; [easy|]. cbn [fold_left]. specialize (IH (10 * a + (N.to_nat c - 48))). lia. }
  cbn [fold_left] in V. specialize (G r (10 * (10 * 0 + (N.to_nat c - 48)) + (N.to_nat d - 48))).
  inversion D as [|? ? D1 D2]. assert (c <> 48%N) by (intros ->; now discriminate Z). lia.
Qed.
