(** Where the Unicode tables are looked at: proofs. *)
From Verif Require Import Str StrFacts Spec Fold Text ValueTypes Property Chrono DateTime Component Calendar Access Nom Parser ErrorText SpecDoc SpecTables ParserProofs UnfoldProofs ValueProofs TotalProofs.
From Coq Require Import ZifyBool ZifyNat ZifyN.

Section Write.
  Context (U V : Unicode).
  Lemma by_name_table_same : forall k, @by_name U k = @by_name V k.
  Proof.
    intros k. unfold by_name. destruct (assoc_lit k by_name_table) as [t|] eqn:Q; [|now destruct (existsb _ k), (existsb _ k)].
    assert (A : Forall (fun c => c < 128)%N k).
    { apply assoc_lit_in in Q as (n & I & ->). assert (X : forallb (fun x => forallb (fun c => c <? 128)%N (lit (fst x))) by_name_table = true) by reflexivity.
      rewrite forallb_forall in X. apply X in I. cbn [fst] in I. rewrite forallb_forall in I. apply Forall_forall. intros c Ic. apply I in Ic. lia. }
    replace (existsb (@is_lowercase U) k) with (existsb (@is_lowercase V) k); [easy|].
    clear Q. induction A as [|c k H A IH]; [easy|]. cbn [existsb]. rewrite IH. f_equal. unfold is_lowercase. now replace (c <? 128)%N with true by lia.
  Qed.
  Lemma value_type_same : forall p, @prop_value_type U p = @prop_value_type V p.
  Proof. intros p. unfold prop_value_type. now rewrite by_name_table_same. Qed.
  Lemma dpt_same : forall p, @dpt_from_property U p = @dpt_from_property V p.
  Proof. intros p. unfold dpt_from_property. now rewrite value_type_same. Qed.
  Lemma prop_write_same : forall p, @prop_write U p = @prop_write V p.
  Proof. intros p. unfold prop_write, prop_line, value_text. now rewrite value_type_same. Qed.
  Lemma props_write_same : forall l, @props_write U l = @props_write V l.
  Proof. induction l as [|p l IH]; [easy|]. cbn [props_write]. now rewrite prop_write_same, IH. Qed.
  Lemma inner_write_same : forall e i k n, @inner_write U e k i n = @inner_write V e k i n.
  Proof.
    intros e. fix IH 1. intros [ps ms cs] k n. cbn [inner_write]. rewrite !props_write_same.
    destruct (match map_get (lit "DTSTAMP") ps with Some _ => _ | None => _ end) as [st n1]. destruct (@props_write V (map snd ps)) as [pt| |]; cbn [obind]; try easy.
    destruct (match map_get (lit "UID") ps with Some _ => _ | None => _ end) as [u n2]. destruct (@props_write V _) as [mt| |]; cbn [obind]; try easy.
    f_equal. revert n2. induction cs as [|[k2 c] cs IHc]; intros n2; [easy|]. rewrite (IH c k2 n2). destruct (@inner_write V e k2 c n2) as [[s n']| |]; cbn [obind]; try easy.
    now rewrite IHc.
  Qed.
  Lemma cc_write_same : forall e c n, @cc_write U e c n = @cc_write V e c n.
  Proof. intros e c n. unfold cc_write. apply inner_write_same. Qed.
  Lemma ccs_write_same : forall e cs n, @ccs_write U e cs n = @ccs_write V e cs n.
  Proof.
    intros e. induction cs as [|c cs IH]; intros n; [easy|]. cbn [ccs_write]. rewrite cc_write_same. destruct (@cc_write V e c n) as [[s n']| |]; cbn [obind]; try easy.
    now rewrite IH.
  Qed.
  Lemma cal_write_same : forall e c, @cal_write U e c = @cal_write V e c.
  Proof. intros e c. unfold cal_write. now rewrite props_write_same, ccs_write_same. Qed.

  (** Parsed components look for [calendar] in small letters. *)
  Lemma lower_same : forall s, same_lower U V s -> @to_lowercase U s = @to_lowercase V s.
  Proof.
    induction s as [|c s IH]; intros H; [easy|]. unfold to_lowercase in *. cbn [flat_map]. rewrite IH by (intros d I; apply H; now right).
    f_equal. destruct (c <? 128)%N eqn:L; [easy|]. apply H; [now left|lia].
  Qed.
  Lemma pcomp_write_same : forall e c n, Forall (same_lower U V) (all_names c) -> @pcomp_write U e c n = @pcomp_write V e c n.
  Proof.
    intros e. fix IH 1. intros [k ps cs] n F. cbn [all_names] in F. inversion F as [|? ? F1 F2]; subst. cbn [pcomp_write].
    assert (@like_extra U e k ps n = @like_extra V e k ps n) as -> by (unfold like_extra; now rewrite lower_same).
    destruct (@like_extra V e k ps n) as [x n1]. destruct (pprops_write ps) as [pt| |]; cbn [obind]; try easy.
    f_equal. clear F F1. revert n1 F2. induction cs as [|c cs IHc]; intros n1 F2; [easy|]. cbn [flat_map] in F2. apply Forall_app in F2 as [G1 G2].
    rewrite (IH c n1) by easy. destruct (@pcomp_write V e c n1) as [[s n']| |]; cbn [obind]; try easy. now rewrite IHc.
  Qed.
  Lemma pcal_write_same : forall e c, Forall (same_lower U V) (flat_map all_names (pcal_comps c)) -> @pcal_write U e c = @pcal_write V e c.
  Proof.
    intros e c F. unfold pcal_write. rewrite pcomp_write_same; [easy|]. cbn [all_names]. constructor; [|easy].
    intros d I L. exfalso. assert (X : forallb (fun c => c <? 128)%N (lit "VCALENDAR") = true) by reflexivity. rewrite forallb_forall in X. apply X in I. lia.
  Qed.
End Write.

Section Read.
  Context (U V : Unicode) {E : Type} {PE : PErr E}.
  Notation D := (same_letters U V).
  Lemma D_suffix : forall r i, suffix r i -> D i -> D r.
  Proof. intros r i [p ->] H c I. apply H. apply in_or_app. now right. Qed.

  (** [p] with the one table and [q] with the other do the same. *)
  Definition matches {A} (p q : parser E A) : Prop := forall i, D i -> p i = q i /\ forall r a, q i = IOk r a -> suffix r i.
  Lemma m_bind : forall A B (p q : parser E A) (f g : A -> parser E B), matches p q -> (forall a, matches (f a) (g a)) -> matches (pbind p f) (pbind q g).
  Proof.
    intros A B p q f g H G i Di. unfold pbind. destruct (H i Di) as [-> S]. destruct (q i) as [r a|e|e|]; try easy.
    pose proof (S r a eq_refl) as Sr. destruct (G a r (D_suffix _ _ Sr Di)) as [-> S2]. split; [easy|]. intros r2 b Q. apply (suffix_trans _ r); eauto.
  Qed.
  Lemma m_ret : forall A (a : A), matches (pret a) (pret a).
  Proof. intros A a i Di. split; [easy|]. intros r b H. injection H as <- _. apply suffix_refl. Qed.
  Lemma m_map : forall A B (f : A -> B) p q, matches p q -> matches (pmap f p) (pmap f q).
  Proof. intros. apply m_bind; [easy|]. intros. apply m_ret. Qed.
  Lemma m_map2 : forall A B (f g : A -> B) p q, (forall a, f a = g a) -> matches p q -> matches (pmap f p) (pmap g q).
  Proof. intros A B f g p q H M. apply m_bind; [easy|]. intros a. rewrite H. apply m_ret. Qed.
  Lemma m_preceded : forall A B (p q : parser E A) (p2 q2 : parser E B), matches p q -> matches p2 q2 -> matches (preceded p p2) (preceded q q2).
  Proof. intros. now apply m_bind. Qed.
  Lemma m_pair : forall A B (p q : parser E A) (p2 q2 : parser E B), matches p q -> matches p2 q2 -> matches (pair p p2) (pair q q2).
  Proof. intros. apply m_bind; [easy|]. intros. apply m_bind; [easy|]. intros. apply m_ret. Qed.
  Lemma m_separated : forall A B C (p q : parser E A) (s t : parser E B) (p2 q2 : parser E C), matches p q -> matches s t -> matches p2 q2 ->
    matches (separated_pair p s p2) (separated_pair q t q2).
  Proof. intros. apply m_bind; [easy|]. intros. apply m_bind; [easy|]. intros. apply m_bind; [easy|]. intros. apply m_ret. Qed.
  Lemma m_delimited : forall A B C (p q : parser E A) (s t : parser E B) (p2 q2 : parser E C), matches p q -> matches s t -> matches p2 q2 ->
    matches (delimited p s p2) (delimited q t q2).
  Proof. intros. apply m_bind; [easy|]. intros. apply m_bind; [easy|]. intros. apply m_bind; [easy|]. intros. apply m_ret. Qed.
  Lemma m_alt2 : forall A (p q p2 q2 : parser E A), matches p q -> matches p2 q2 -> matches (alt2 p p2) (alt2 q q2).
  Proof.
    intros A p q p2 q2 H H2 i Di. unfold alt2. destruct (H i Di) as [-> S]. destruct (q i) as [r a|e|e|]; try easy.
    destruct (H2 i Di) as [-> S2]. destruct (q2 i); easy.
  Qed.
  Lemma m_alt3 : forall A (p q p2 q2 p3 q3 : parser E A), matches p q -> matches p2 q2 -> matches p3 q3 -> matches (alt3 p p2 p3) (alt3 q q2 q3).
  Proof.
    intros A p q p2 q2 p3 q3 H H2 H3 i Di. unfold alt3. destruct (H i Di) as [-> S]. destruct (q i) as [r a|e|e|]; try easy.
    destruct (H2 i Di) as [-> S2]. destruct (q2 i); try easy. destruct (H3 i Di) as [-> S3]. destruct (q3 i); easy.
  Qed.
  Lemma m_opt : forall A (p q : parser E A), matches p q -> matches (opt p) (opt q).
  Proof.
    intros A p q H i Di. unfold opt. destruct (H i Di) as [-> S]. destruct (q i) as [r a|e|e|]; try easy; (split; [easy|]); intros r2 b Q; injection Q as <- _; [eauto|apply suffix_refl].
  Qed.
  Lemma m_cut : forall A (p q : parser E A), matches p q -> matches (cut p) (cut q).
  Proof. intros A p q H i Di. unfold cut. destruct (H i Di) as [-> S]. destruct (q i); easy. Qed.
  Lemma m_context : forall A c (p q : parser E A), matches p q -> matches (context c p) (context c q).
  Proof. intros A c p q H i Di. unfold context. destruct (H i Di) as [-> S]. destruct (q i); easy. Qed.
  Lemma m_all : forall A (p q : parser E A), matches p q -> matches (all_consuming p) (all_consuming q).
  Proof.
    intros A p q H i Di. unfold all_consuming. destruct (H i Di) as [-> S]. now destruct (q i) as [[|c r] a|e|e|].
  Qed.
  Lemma m_many0 : forall A (p q : parser E A) f, matches p q -> matches (many0 f p) (many0 f q).
  Proof.
    intros A p q f H. induction f as [|f IH]; intros i Di; [easy|]. cbn [many0]. destruct (H i Di) as [-> S]. destruct (q i) as [r a|e|e|]; try easy.
    - pose proof (S r a eq_refl) as Sr. destruct (length r =? length i); [easy|]. destruct (IH r (D_suffix _ _ Sr Di)) as [-> S2].
      destruct (many0 f q r) as [r2 l|e|e|]; try easy. split; [easy|]. intros r3 b Q. injection Q as <- _. apply (suffix_trans _ r); eauto.
    - split; [easy|]. intros r2 b Q. injection Q as <- _. apply suffix_refl.
  Qed.
  Lemma m_many : forall A (p q : parser E A), matches p q -> matches (fun i => many0 (S (length i)) p i) (fun i => many0 (S (length i)) q i).
  Proof. intros A p q H i. now apply m_many0. Qed.
  Lemma m_till : forall A B (p q : parser E A) (g h : parser E B) f, matches p q -> matches g h -> matches (many_till f p g) (many_till f q h).
  Proof.
    intros A B p q g h f H G. induction f as [|f IH]; intros i Di; [easy|]. cbn [many_till]. destruct (G i Di) as [-> Sg]. destruct (h i) as [r b|e|e|]; try easy.
    - split; [easy|]. intros r2 x Q. injection Q as <- _. eauto.
    - destruct (H i Di) as [-> S]. destruct (q i) as [r a|e1|e1|]; try easy. pose proof (S r a eq_refl) as Sr. destruct (length r =? length i); [easy|].
      destruct (IH r (D_suffix _ _ Sr Di)) as [-> S2]. destruct (many_till f q h r) as [r2 [l b]|e2|e2|]; try easy. split; [easy|]. intros r3 x Q. injection Q as <- _.
      apply (suffix_trans _ r); eauto.
  Qed.
  Lemma m_same : forall A (p : parser E A), (forall i r a, p i = IOk r a -> suffix r i) -> matches p p.
  Proof. intros A p H i Di. split; [easy|]. intros r a. apply H. Qed.
  Lemma span_suffix : forall f i, suffix (snd (span f i)) i.
  Proof.
    intros f. induction i as [|c i IH]; [apply suffix_refl|]. cbn [span]. destruct (f c); [|apply suffix_refl]. destruct (span f i) as [a b]. cbn [snd] in *.
    destruct IH as [p ->]. now exists (c :: p).
  Qed.
  Lemma skip_suffix : forall n (i : str), suffix (skipn n i) i.
  Proof. intros n i. exists (firstn n i). symmetry. apply firstn_skipn. Qed.
  Lemma m_tag : forall t, matches (tag t) (tag t).
  Proof. intros t. apply m_same. intros i r a. unfold tag. destruct (starts_with t i); [|easy]. intros H. injection H as <- _. apply skip_suffix. Qed.
  Lemma m_no_case : forall t, matches (tag_no_case t) (tag_no_case t).
  Proof. intros t. apply m_same. intros i r a. unfold tag_no_case. destruct (starts_with _ _); [|easy]. intros H. injection H as <- _. apply skip_suffix. Qed.
  Lemma m_ending : matches line_ending line_ending.
  Proof.
    apply m_same. intros i r a. unfold line_ending. destruct (starts_with [LF] i); [intros H; injection H as <- _; apply (skip_suffix 1)|].
    destruct (starts_with _ i); [|easy]. intros H. injection H as <- _. apply (skip_suffix 2).
  Qed.
  Lemma m_while : forall f, matches (take_while f) (take_while f).
  Proof. intros f. apply m_same. intros i r a. unfold take_while. pose proof (span_suffix f i) as S. destruct (span f i). intros H. now injection H as <- _. Qed.
  Lemma m_while1 : forall k f, matches (take_while1 k f) (take_while1 k f).
  Proof. intros k f. apply m_same. intros i r a. unfold take_while1. pose proof (span_suffix f i) as S. destruct (span f i) as [[|c x] y]; [easy|]. intros H. now injection H as <- _. Qed.
  Lemma m_until : forall t, matches (take_until t) (take_until t).
  Proof.
    intros t. apply m_same. intros i r a. unfold take_until. destruct (find_sub t i) as [[x y]|] eqn:Q; [|easy]. intros H. injection H as <- _. clear a.
    revert x y Q. induction i as [|c i IH]; intros x y Q; cbn [find_sub] in Q; destruct (starts_with t _); try easy.
    - injection Q as _ <-. apply suffix_refl.
    - injection Q as _ <-. apply suffix_refl.
    - destruct (find_sub t i) as [[x2 y2]|] eqn:Q2; [|easy]. injection Q as _ <-. destruct (IH _ _ eq_refl) as [p ->]. now exists (c :: p).
  Qed.
  Lemma m_eof : matches eof eof.
  Proof. apply m_same. intros [|c i] r a; [|easy]. intros H. injection H as <- _. apply suffix_refl. Qed.

  Lemma m_key : matches (@valid_key_sequence U E) (@valid_key_sequence V E).
  Proof.
    intros i Di. split; [|intros r a; unfold valid_key_sequence, take_while; pose proof (span_suffix (@is_key_char V) i) as S; destruct (span _ i); intros H; now injection H as <- _].
    unfold valid_key_sequence, take_while. assert (span (@is_key_char U) i = span (@is_key_char V) i) as ->; [|easy].
    revert Di. induction i as [|c i IH]; intros Di; [easy|]. cbn [span]. rewrite IH by (intros d I; apply Di; now right).
    assert (@is_key_char U c = @is_key_char V c) as ->; [|easy]. unfold is_key_char. f_equal. unfold is_alnum. destruct (c <? 128)%N eqn:L; [easy|]. apply Di; [now left|lia].
  Qed.
  Lemma m_property_key : matches (@property_key U E PE) (@property_key V E PE).
  Proof. intros i Di. unfold property_key. destruct (_ || _); [easy|]. now apply m_key. Qed.
  Lemma m_separator : forall A (p q : parser E A), matches p q -> matches (line_separated p) (line_separated q).
  Proof. intros. apply m_delimited; try easy; apply m_many, m_ending. Qed.
  Lemma m_line : forall A t (p q : parser E A), matches p q -> matches (line t p) (line t q).
  Proof. intros. apply m_separator, m_preceded; [apply m_no_case|easy]. Qed.
  Lemma m_value : matches param_value param_value.
  Proof. apply m_alt3; [apply m_eof| |apply m_while1]. apply m_delimited; [apply m_tag|apply m_while1|apply m_tag]. Qed.
  Lemma m_parameter : matches (@parameter_p U E PE) (@parameter_p V E PE).
  Proof.
    assert (P : matches (preceded (pair (tag [SEMI]) space0) (@valid_key_sequence U E)) (preceded (pair (tag [SEMI]) space0) (@valid_key_sequence V E))).
    { apply m_preceded; [apply m_pair; [apply m_tag|apply m_while]|apply m_key]. }
    apply m_alt2; apply m_map.
    - apply m_preceded; [apply m_pair; [apply m_tag|apply m_while]|]. apply m_separated; [apply m_key|apply m_tag|apply m_map, m_opt, m_value].
    - apply m_pair; [exact P|]. apply m_map, m_opt, m_preceded; [apply m_tag|apply m_value].
  Qed.
  Lemma decode_same : forall n ps v, @decode_value U n ps v = @decode_value V n ps v.
  Proof. intros n ps v. unfold decode_value, determin_value_type. now rewrite (by_name_table_same U V). Qed.
  Lemma m_property : matches (@property_p U E PE) (@property_p V E PE).
  Proof.
    apply m_context, m_cut, m_map2; [intros [[[n ps] v] o]; now rewrite decode_same|]. apply m_pair; [|apply m_opt, m_ending]. apply m_alt2.
    - apply m_separated; [|apply m_context, m_tag|apply m_context, m_alt3; [apply m_until|apply m_until|apply m_while]].
      apply m_pair; [|apply m_many, m_parameter]. apply m_cut, m_context, m_preceded; [apply m_while|apply m_property_key].
    - apply m_context, m_map, m_key.
  Qed.
  Lemma m_component : forall f, matches (@component U E PE f) (@component V E PE f).
  Proof.
    induction f as [|f IH]; [now intros i Di|]. cbn [component]. apply m_bind; [apply m_line, m_key|]. intros n. apply m_bind.
    - intros i Di. apply m_till; [| |easy].
      + apply m_cut, m_context, m_alt2; apply m_separator, m_map; [easy|apply m_property].
      + apply m_line, m_cut, m_context, m_tag.
    - intros [l x]. apply m_bind; [apply m_many, m_tag|]. intros _. apply m_ret.
  Qed.
  Lemma m_component_p : matches (@component_p U E PE) (@component_p V E PE).
  Proof. intros i. now apply m_component. Qed.
  Lemma m_components : matches (@components_p U E PE) (@components_p V E PE).
  Proof. apply m_many, m_all, m_component_p. Qed.
End Read.
