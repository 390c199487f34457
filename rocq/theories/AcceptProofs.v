(** What the parser accepts. *)
From Verif Require Import Str StrFacts Spec ValueTypes Property Chrono DateTime Component Calendar Nom Parser SpecDoc
  ParserProofs TotalProofs ReadProofs.
From Coq Require Import ZifyBool ZifyNat ZifyN.

Section Accepts.
  Context {U : Unicode} {E : Type} {PE : PErr E}.

  Lemma pbind_ok : forall A B (p : parser E A) (f : A -> parser E B) i r b, pbind p f i = IOk r b ->
    exists r1 a, p i = IOk r1 a /\ f a r1 = IOk r b.
  Proof. intros A B p f i r b. unfold pbind. destruct (p i) as [r1 a|e|e|]; try easy. intros H. now exists r1, a. Qed.
  Lemma pmap_ok : forall A B (f : A -> B) (p : parser E A) i r b, pmap f p i = IOk r b ->
    exists a, p i = IOk r a /\ b = f a.
  Proof. intros A B f p i r b H. apply pbind_ok in H as (r1 & a & H1 & H2). injection H2 as <- <-. now exists a. Qed.
  Lemma cut_ok : forall A (p : parser E A) i r a, cut p i = IOk r a -> p i = IOk r a.
  Proof. intros A p i r a. unfold cut. now destruct (p i). Qed.
  Lemma context_ok : forall A c (p : parser E A) i r a, context c p i = IOk r a -> p i = IOk r a.
  Proof. intros A c p i r a. unfold context. now destruct (p i). Qed.
  Lemma alt2_ok : forall A (p q : parser E A) i r a, alt2 p q i = IOk r a -> p i = IOk r a \/ q i = IOk r a.
  Proof. intros A p q i r a. unfold alt2. destruct (p i); auto. destruct (q i); auto. easy. Qed.
  Lemma alt3_ok : forall A (p q s : parser E A) i r a, alt3 p q s i = IOk r a ->
    p i = IOk r a \/ q i = IOk r a \/ s i = IOk r a.
  Proof. intros A p q s i r a. unfold alt3. destruct (p i); auto. destruct (q i); auto. destruct (s i); auto. easy. Qed.
  Lemma opt_ok : forall A (p : parser E A) i r o, opt p i = IOk r o ->
    (exists a, p i = IOk r a /\ o = Some a) \/ r = i /\ o = None.
  Proof.
    intros A p i r o. unfold opt. destruct (p i); try easy; intros H; injection H as <- <-; [left; eauto|now right].
  Qed.
  Lemma tag_taken : forall t i r x, tag (E := E) t i = IOk r x -> i = t ++ r.
  Proof. intros t i r x. unfold tag. destruct (starts_with t i) eqn:S; [|easy]. intros H. injection H as <- _. now apply starts_with_skipn. Qed.
  Lemma tag_no_case_taken : forall t i r x, tag_no_case (E := E) t i = IOk r x ->
    exists k, i = k ++ r /\ map lower_ascii k = map lower_ascii t.
  Proof.
    intros t i r x. unfold tag_no_case. destruct (starts_with _ _) eqn:S; [|easy]. intros H. injection H as <- _.
    exists (firstn (length t) i). split; [symmetry; apply firstn_skipn|].
    apply starts_with_spec in S as [y S]. rewrite <- firstn_map, S.
    rewrite <- (map_length lower_ascii t) at 1. apply firstn_app_exact.
  Qed.
  Lemma line_ending_taken : forall i r x, line_ending (E := E) i = IOk r x -> i = x ++ r /\ break x.
  Proof.
    intros i r x. unfold line_ending. destruct (starts_with [LF] i) eqn:S1.
    - intros H. injection H as <- <-. split; [now apply starts_with_skipn in S1|now right].
    - destruct (starts_with [CR; LF] i) eqn:S2; [|easy]. intros H. injection H as <- <-.
      split; [now apply starts_with_skipn in S2|now left].
  Qed.
  Lemma many0_breaks_taken : forall f i r l, many0 f (line_ending (E := E)) i = IOk r l ->
    exists b, i = b ++ r /\ breaks b.
  Proof.
    induction f as [|f IH]; cbn [many0]; intros i r l H; [easy|].
    destruct (line_ending i) as [r1 a|e|e|] eqn:P; try easy.
    - destruct (length r1 =? length i) eqn:L; [easy|]. destruct (many0 f line_ending r1) as [r2 l2|e|e|] eqn:M; try easy.
      injection H as <- <-. apply IH in M as (b & -> & B). apply line_ending_taken in P as [-> K].
      exists (a ++ b). rewrite app_assoc. split; [easy|now constructor].
    - injection H as <- <-. exists []. split; [easy|constructor].
  Qed.
  Lemma line_separated_taken : forall A (p : parser E A) i r a, line_separated p i = IOk r a ->
    exists b1 j b2, i = b1 ++ j /\ p j = IOk (b2 ++ r) a /\ breaks b1 /\ breaks b2.
  Proof.
    intros A p i r a H. unfold line_separated, delimited in H. apply pbind_ok in H as (r1 & x & H1 & H).
    apply pbind_ok in H as (r2 & y & H2 & H). apply pbind_ok in H as (r3 & z & H3 & H). injection H as <- <-.
    apply many0_breaks_taken in H1 as (b1 & -> & B1). apply many0_breaks_taken in H3 as (b2 & -> & B2).
    now exists b1, r1, b2.
  Qed.
  Lemma line_taken : forall A t (p : parser E A) i r a, line t p i = IOk r a ->
    exists b1 k j b2, i = b1 ++ k ++ j /\ p j = IOk (b2 ++ r) a /\ breaks b1 /\ breaks b2 /\ map lower_ascii k = map lower_ascii t.
  Proof.
    intros A t p i r a H. apply line_separated_taken in H as (b1 & j & b2 & -> & H & B1 & B2).
    apply pbind_ok in H as (r1 & x & H1 & H). apply tag_no_case_taken in H1 as (k & -> & K). now exists b1, k, r1, b2.
  Qed.
  Lemma take_while_taken : forall f i r x, take_while (E := E) f i = IOk r x -> i = x ++ r /\ forallb f x = true.
  Proof.
    intros f i r x. unfold take_while. destruct (span f i) as [a b] eqn:S. apply span_spec in S as (-> & F & _).
    intros H. injection H as <- <-. easy.
  Qed.
  Lemma take_while1_taken : forall k f i r x, take_while1 (E := E) k f i = IOk r x -> i = x ++ r /\ forallb f x = true /\ x <> [].
  Proof.
    intros k f i r x. unfold take_while1. destruct (span f i) as [a b] eqn:S. apply span_spec in S as (-> & F & _).
    destruct a as [|c a]; [easy|]. intros H. injection H as <- <-. easy.
  Qed.
  Lemma key_taken : forall i r x, valid_key_sequence (E := E) i = IOk r x -> i = x ++ r /\ name_ok x.
  Proof. intros i r x H. apply take_while_taken in H as [-> H]. split; [easy|]. now apply name_ok_spec. Qed.
  Lemma space0_taken : forall i r x, space0 (E := E) i = IOk r x -> i = x ++ r /\ blank x.
  Proof.
    intros i r x H. apply take_while_taken in H as [-> H]. split; [easy|]. apply Forall_forall. intros c I.
    rewrite forallb_forall in H. apply H in I. lia.
  Qed.
  Lemma multispace0_taken : forall i r x, multispace0 (E := E) i = IOk r x -> i = x ++ r /\ Forall (fun c => In c [SP; TAB; CR; LF]) x.
  Proof.
    intros i r x H. apply take_while_taken in H as [-> H]. split; [easy|]. apply Forall_forall. intros c I.
    rewrite forallb_forall in H. apply H in I. cbn [In]. lia.
  Qed.
  Lemma not_in : forall f s (c : N), forallb f s = true -> f c = false -> ~ In c s.
  Proof. intros f s c H F I. rewrite forallb_forall in H. apply H in I. congruence. Qed.
  Lemma param_value_taken : forall i r v, param_value (E := E) i = IOk r v ->
    exists s, i = s ++ r /\ value_form (remove_empty (Some v)) s.
  Proof.
    intros i r v H. apply alt3_ok in H as [H|[H|H]].
    - unfold eof in H. destruct i; [|easy]. injection H as <- <-. exists []. split; [easy|constructor].
    - apply pbind_ok in H as (r1 & x & H1 & H). apply pbind_ok in H as (r2 & y & H2 & H).
      apply pbind_ok in H as (r3 & z & H3 & H). injection H as <- <-. apply tag_taken in H1 as ->. apply tag_taken in H3 as ->.
      apply take_while1_taken in H2 as (-> & F & N). exists (DQ :: y ++ [DQ]). split; [cbn [app]; now rewrite <- app_assoc|].
      destruct y as [|c y]; [easy|]. constructor; [easy|]. now apply (not_in _ _ _ F).
    - apply take_while1_taken in H as (-> & F & N). exists v. split; [easy|]. destruct v as [|c v]; [easy|].
      constructor; [easy| |]; now apply (not_in _ _ _ F).
  Qed.
  Lemma opt_value_taken : forall i r o, pmap remove_empty (opt (param_value (E := E))) i = IOk r o ->
    exists s, i = s ++ r /\ value_form o s.
  Proof.
    intros i r o H. apply pmap_ok in H as (a & H & ->). apply opt_ok in H as [(v & H & ->)|[-> ->]].
    - now apply param_value_taken.
    - exists []. split; [easy|constructor].
  Qed.
  Lemma parameter_taken : forall i r q, parameter_p (E := E) i = IOk r q -> exists s, i = s ++ r /\ param_taken q s.
  Proof.
    intros i r q H. apply alt2_ok in H as [H|H].
    - apply pmap_ok in H as ([k v] & H & ->). apply pbind_ok in H as (r1 & x & H1 & H).
      apply pbind_ok in H1 as (r2 & y & H1 & H2). apply tag_taken in H1 as ->.
      apply pbind_ok in H2 as (r3 & z & H2 & H3). injection H3 as <- <-. apply space0_taken in H2 as [-> B].
      apply pbind_ok in H as (r4 & k' & H4 & H). apply key_taken in H4 as [-> K].
      apply pbind_ok in H as (r5 & e & H5 & H). apply tag_taken in H5 as ->.
      apply pbind_ok in H as (r6 & o & H6 & H). injection H as <- <- <-. apply opt_value_taken in H6 as (s & -> & V).
      exists (SEMI :: z ++ k' ++ EQUALS :: s). split; [cbn [app]; now rewrite <- !app_assoc|]. now constructor.
    - apply pmap_ok in H as ([k v] & H & ->). apply pbind_ok in H as (r0 & k' & H0 & H).
      apply pbind_ok in H0 as (r1 & x & H1 & H0).
      apply pbind_ok in H1 as (r2 & y & H1 & H2). apply tag_taken in H1 as ->.
      apply pbind_ok in H2 as (r3 & z & H2 & H3). injection H3 as <- <-. apply space0_taken in H2 as [-> B].
      apply key_taken in H0 as [-> K]. apply pbind_ok in H as (r4 & o & H4 & H). injection H as <- <- <-.
      apply pmap_ok in H4 as (o' & H4 & ->). apply opt_ok in H4 as [(v & H4 & ->)|[-> ->]].
      + apply pbind_ok in H4 as (r5 & e & H5 & H4). apply tag_taken in H5 as ->. apply param_value_taken in H4 as (s & -> & V).
        exists (SEMI :: z ++ k' ++ EQUALS :: s). split; [cbn [app]; now rewrite <- !app_assoc|]. now constructor.
      + exists (SEMI :: z ++ k'). split; [cbn [app]; now rewrite <- !app_assoc|]. now constructor.
  Qed.
  Lemma parameters_taken : forall f i r l, many0 f (parameter_p (E := E)) i = IOk r l ->
    exists ss, i = concat ss ++ r /\ Forall2 param_taken l ss.
  Proof.
    induction f as [|f IH]; cbn [many0]; intros i r l H; [easy|].
    destruct (parameter_p i) as [r1 a|e|e|] eqn:P; try easy.
    - destruct (length r1 =? length i) eqn:L; [easy|]. destruct (many0 f parameter_p r1) as [r2 l2|e|e|] eqn:M; try easy.
      injection H as <- <-. apply IH in M as (ss & -> & F). apply parameter_taken in P as (s & -> & T).
      exists (s :: ss). cbn [concat]. rewrite app_assoc. split; [easy|now constructor].
    - injection H as <- <-. exists []. split; [easy|constructor].
  Qed.
  Lemma find_sub_first : forall t s a b, t <> [] -> find_sub t s = Some (a, b) -> forall x y, a ++ t = x ++ t ++ y -> y = [].
  Proof.
    intros t. induction s as [|c s IH]; cbn [find_sub]; intros a b T.
    - destruct (starts_with t []) eqn:S; [|easy]. intros H. injection H as <- <-. intros x y H.
      apply (f_equal (@length N)) in H. cbn [app] in H. rewrite !app_length in H. destruct y; [easy|]. cbn [length] in H. lia.
    - destruct (starts_with t (c :: s)) eqn:S.
      + intros H. injection H as <- <-. intros x y H.
        apply (f_equal (@length N)) in H. cbn [app] in H. rewrite !app_length in H. destruct y; [easy|]. cbn [length] in H. lia.
      + destruct (find_sub t s) as [[a' b']|] eqn:F; [|easy]. intros H. injection H as <- <-. intros x y H.
        destruct x as [|d x]; cbn [app] in H.
        * exfalso. apply find_sub_some in F as (-> & r & ->).
          assert (starts_with t (c :: a' ++ t ++ r) = true); [|congruence]. apply starts_with_spec.
          exists (y ++ r). rewrite (app_assoc t), <- H. cbn [app]. now rewrite <- app_assoc.
        * injection H as -> H. now apply (IH a' b' T eq_refl x).
  Qed.
  Lemma value_taken : forall i r v,
    context "property value" (alt3 (take_until (E := E) [CR; LF]) (take_until [LF]) (take_while (fun _ => true))) i = IOk r v ->
    i = v ++ r /\ value_cut v r.
  Proof.
    intros i r v H. apply context_ok in H. unfold alt3, take_until in H.
    destruct (find_sub [CR; LF] i) as [[a b]|] eqn:F1.
    - injection H as <- <-. pose proof (find_sub_first [CR; LF] _ _ _ ltac:(easy) F1) as X.
      apply find_sub_some in F1 as (-> & b' & ->). split; [easy|]. left. split; [now exists b'|]. intros (x & y & ->).
      specialize (X x (y ++ [CR; LF])). rewrite <- !app_assoc in X. specialize (X eq_refl). now destruct y.
    - destruct (find_sub [LF] i) as [[a b]|] eqn:F2.
      + injection H as <- <-. pose proof (find_sub_first [LF] _ _ _ ltac:(easy) F2) as X.
        apply find_sub_some in F2 as (-> & b' & ->). split; [easy|]. right. left. split; [now exists b'|]. split.
        * intros I. apply in_split in I as (x & y & ->). specialize (X x (y ++ [LF])). rewrite <- !app_assoc in X.
          specialize (X eq_refl). now destruct y.
        * intros (x & y & Q). now apply (find_sub_none _ _ F1 x y).
      + unfold take_while in H. destruct (span (fun _ => true) i) as [x y] eqn:Q. apply span_spec in Q as (-> & _ & Q).
        destruct y as [|c y]; [|easy]. injection H as <- <-. split; [easy|]. right. right. split; [easy|].
        rewrite app_nil_r in F2. intros I. apply in_split in I as (a & b & ->). now apply (find_sub_none _ _ F2 a b).
  Qed.
  Lemma property_taken : forall i r p, property_p (E := E) i = IOk r p -> exists s, i = s ++ r /\ prop_taken p s r.
  Proof.
    intros i r p H. apply context_ok, cut_ok in H. apply pmap_ok in H as ([[[k qs] v] z] & H & ->).
    apply pbind_ok in H as (r1 & x & H & H0). apply pbind_ok in H0 as (r2 & e & H0 & H1). injection H1 as -> -> ->.
    assert (X : exists s, r1 = s ++ r /\ (s = [] \/ break s)).
    { apply opt_ok in H0 as [(a & H0 & ->)|[-> ->]]; [|exists []; now auto]. apply line_ending_taken in H0 as [-> B]. exists a. now auto. }
    destruct X as (s & -> & X). apply alt2_ok in H as [H|H].
    - apply pbind_ok in H as (r3 & y & H2 & H). apply pbind_ok in H2 as (r4 & k' & H2 & H3).
      apply pbind_ok in H3 as (r5 & qs' & H3 & H4). injection H4 as ? ?; subst.
      apply cut_ok, context_ok in H2. apply pbind_ok in H2 as (r6 & w & H2 & H4). apply multispace0_taken in H2 as [-> W].
      unfold property_key in H4. destruct (_ || _); [easy|]. apply key_taken in H4 as [-> K].
      apply parameters_taken in H3 as (ss & -> & F).
      apply pbind_ok in H as (r7 & c & H5 & H). apply context_ok, tag_taken in H5 as ->.
      apply pbind_ok in H as (r8 & v' & H5 & H). injection H as ? ? ?; subst. apply value_taken in H5 as [-> V].
      exists (w ++ k ++ concat ss ++ COLON :: v ++ s). split; [|now constructor].
      rewrite <- !app_assoc. cbn [app]. now rewrite <- !app_assoc.
    - apply context_ok in H. apply pmap_ok in H as (k' & H & Q). injection Q as -> -> ->. apply key_taken in H as [-> K].
      exists (k' ++ s). split; [now rewrite app_assoc|].
      replace (decode_value k' [] []) with (@nil N); [now constructor|]. unfold decode_value. now destruct (determin_value_type k' []) as [[]|].
  Qed.
  Lemma body_line_taken : forall (c : parser E pcomp) i r x,
    cut (context "component" (alt2 (line_separated (pmap inl c)) (line_separated (pmap inr property_p)))) i = IOk r x ->
    exists b1 j b2, i = b1 ++ j /\ breaks b1 /\ breaks b2 /\
      match x with inl y => c j = IOk (b2 ++ r) y | inr p => property_p (E := E) j = IOk (b2 ++ r) p end.
  Proof.
    intros c i r x H. apply cut_ok, context_ok, alt2_ok in H as [H|H];
      apply line_separated_taken in H as (b1 & j & b2 & -> & H & B1 & B2); apply pmap_ok in H as (a & H & ->); now exists b1, j, b2.
  Qed.
  Lemma body_all_taken : forall (c : parser E pcomp) n f i r l x,
    (forall i r y, c i = IOk r y -> exists s, i = s ++ r /\ comp_taken y s r) ->
    many_till f (cut (context "component" (alt2 (line_separated (pmap inl c)) (line_separated (pmap inr property_p)))))
      (line (lit "END:") (cut (context "mismatching end" (tag n)))) i = IOk r (l, x) ->
    exists s b3 ke b4, i = s ++ b3 ++ ke ++ n ++ b4 ++ r /\ breaks b3 /\ breaks b4 /\ map lower_ascii ke = lit "end:" /\
      body_taken (children_props l) (children_comps l) s (b3 ++ ke ++ n ++ b4 ++ r).
  Proof.
    intros c n f i r l x C. revert i l. induction f as [|f IH]; intros i l H; [easy|]. cbn [many_till] in H.
    destruct (line (lit "END:") _ i) as [r1 b|e|e|] eqn:L; try easy.
    - injection H as <- <- <-. apply line_taken in L as (b1 & k & j & b2 & -> & L & B1 & B2 & K).
      apply cut_ok, context_ok, tag_taken in L as ->. exists [], b1, k, b2. repeat split; try easy. constructor.
    - clear L. match type of H with context [cut ?p i] => destruct (cut p i) as [r1 a|e'|e'|] eqn:P; try easy end.
      destruct (length r1 =? length i); [easy|].
      destruct (many_till f _ _ r1) as [r2 [l2 b]|e'|e'|] eqn:M; try easy. injection H as <- <- <-.
      apply IH in M as (t & b3 & ke & b4 & -> & B3 & B4 & K & T).
      apply body_line_taken in P as (b1 & j & b2 & -> & B1 & B2 & P). destruct a as [y|p].
      + apply C in P as (s & -> & P). exists (b1 ++ s ++ b2 ++ t), b3, ke, b4. repeat split; try easy.
        * now rewrite <- !app_assoc.
        * now apply bt_comp.
      + apply property_taken in P as (s & -> & P). exists (b1 ++ s ++ b2 ++ t), b3, ke, b4. repeat split; try easy.
        * now rewrite <- !app_assoc.
        * now apply bt_prop.
  Qed.
  Lemma lfs_taken : forall f i r l, many0 f (tag (E := E) [LF]) i = IOk r l -> exists b, i = b ++ r /\ breaks b.
  Proof.
    induction f as [|f IH]; cbn [many0]; intros i r l H; [easy|].
    destruct (tag [LF] i) as [r1 a|e|e|] eqn:P; try easy.
    - destruct (length r1 =? length i) eqn:L; [easy|]. destruct (many0 f _ r1) as [r2 l2|e|e|] eqn:M; try easy.
      injection H as <- <-. apply IH in M as (b & -> & B). apply tag_taken in P as ->.
      exists ([LF] ++ b). split; [easy|]. constructor; [now right|easy].
    - injection H as <- <-. exists []. split; [easy|constructor].
  Qed.
  Lemma breaks_app : forall a b, breaks a -> breaks b -> breaks (a ++ b).
  Proof. intros a b H B. induction H; [easy|]. rewrite <- app_assoc. now constructor. Qed.
  Lemma component_taken : forall fuel i r c, component (E := E) fuel i = IOk r c -> exists s, i = s ++ r /\ comp_taken c s r.
  Proof.
    induction fuel as [|f IH]; intros i r c H; [easy|]. cbn [component] in H.
    apply pbind_ok in H as (r1 & n & H1 & H). apply line_taken in H1 as (b1 & kb & j & b2 & -> & H1 & B1 & B2 & KB).
    apply key_taken in H1 as [-> K].
    apply pbind_ok in H as (r2 & [l x] & H2 & H). apply body_all_taken in H2 as (s & b3 & ke & b4 & -> & B3 & B4 & KE & T); [|exact IH].
    apply pbind_ok in H as (r3 & z & H3 & H). injection H as <- <-. apply lfs_taken in H3 as (b5 & -> & B5).
    exists (b1 ++ kb ++ n ++ b2 ++ s ++ b3 ++ ke ++ n ++ (b4 ++ b5)). split; [now rewrite <- !app_assoc|].
    constructor; try easy; [now apply breaks_app|]. now rewrite <- app_assoc.
  Qed.
End Accepts.
