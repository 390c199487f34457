(** Documents of the grammar of RFC 5545 are read as what they say, exactly if they are kept: proofs. *)
From Coq Require Import ZifyBool ZifyNat ZifyN.
From Verif Require Import Str StrFacts Spec Fold Text ValueTypes Property Chrono DateTime Component Calendar Nom Parser
  SpecBuild SpecDate SpecTree SpecDoc SpecRound SpecText SpecMore SpecItems SpecGrammar SpecRfc SpecImport
  UnfoldProofs TextProofs ValueProofs ParserProofs DocProofs ItemProofs GrammarProofs MoreProofs LfProofs CopyProofs RfcProofs.

(** ** Values *)

Lemma wire_length : forall ps, length (wire ps) = length ps + length (filter (fun p => match p with Escaped _ => true | _ => false end) ps).
Proof. induction ps as [|[c|c] ps IH]; [reflexivity| |]; unfold wire in *; cbn [flat_map wire_piece app length filter]; lia. Qed.
Lemma wire_plain : forall ps, Forall rfc_piece ps -> (wire ps = decoded ps <-> ~ In BSL (wire ps)).
Proof.
  induction ps as [|p ps IH]; intros H; [split; [intros _ []|reflexivity]|].
  inversion H as [|? ? P Q]; subst. destruct p as [c|c].
  - change (wire (Plain c :: ps)) with (c :: wire ps). change (decoded (Plain c :: ps)) with (c :: decoded ps). cbn [In]. cbn in P. split.
    + intros E. injection E as E. apply (IH Q) in E. intros [G|G]; [now subst c|tauto].
    + intros E. f_equal. apply IH; tauto.
  - split.
    + intros E. exfalso. apply (f_equal (@length N)) in E. rewrite wire_length in E. unfold decoded in E. rewrite map_length in E. cbn [filter length] in E. lia.
    + intros E. exfalso. apply E. now left.
Qed.

Section Text.
  Context {U : Unicode}.

  Lemma first_fun : forall same qs vs ws, first_named same qs vs -> first_named same qs ws -> vs = ws.
  Proof.
    intros same qs vs ws (a & k & b & -> & K & A) (a' & k' & b' & E & K' & A'). revert a' A' E.
    induction a as [|q a IH]; intros [|q' a'] A' E; cbn [app] in E.
    - now injection E.
    - injection E as <- _. inversion A'; subst. now exfalso.
    - injection E as -> _. inversion A; subst. now exfalso.
    - injection E as -> E. inversion A; inversion A'; subst. eapply IH; eassumption.
  Qed.
  Lemma first_cons : forall same q qs vs, ~ same (fst q) -> first_named same (q :: qs) vs <-> first_named same qs vs.
  Proof.
    intros same q qs vs N. split.
    - intros ([|x a] & k & b & E & K & A); cbn [app] in E; injection E as -> E; [easy|]. inversion A; subst. now exists a, k, b.
    - intros (a & k & b & -> & K & A). exists (q :: a), k, b. split; [reflexivity|]. split; [exact K|]. now constructor.
  Qed.
  Lemma no_comma_name : forall n t, In (n, t) registered -> ~ In COMMA (lit n) /\ lit n <> [].
  Proof. intros n t I. cbn [registered In] in I. repeat (destruct I as [I|I]; [injection I as <- <-; split; [vm_compute; intuition discriminate|discriminate]|]). destruct I. Qed.
  Lemma joined_name : forall vs n t, vs <> [] -> In (n, t) registered -> joined vs = lit n -> vs = [lit n].
  Proof.
    intros [|v [|w vs]] n t N I E; [easy| |].
    - cbn [joined map concat] in E. rewrite app_nil_r in E. now subst v.
    - exfalso. apply no_comma_name in I as [I _]. apply I. rewrite <- E. cbn [joined map concat app]. apply in_or_app. right. now left.
  Qed.
  Lemma determined : forall k rs qs, Forall2 param_said rs qs -> Forall (fun q => snd q <> []) rs ->
    (determin_value_type k qs = Some Text
     <-> first_named (eq (lit "VALUE")) rs [lit "TEXT"]
         \/ (forall n t, In (n, t) registered -> ~ first_named (eq (lit "VALUE")) rs [lit n])
            /\ exists n, In (n, Text) rfc_default_types /\ k = lit n).
  Proof.
    intros k rs qs F G. induction F as [|q p rs qs [K V] F IH].
    - unfold determin_value_type. cbn [find]. rewrite by_name_rfc. split.
      + intros H. right. split; [|exact H]. intros n t _ (a & j & b & E & _). now destruct a.
      + intros [(a & j & b & E & _)|[_ H]]; [now destruct a|exact H].
    - inversion G as [|? ? G1 G2]; subst. destruct (str_eqb (pp_key p) (lit "VALUE")) eqn:Q.
      + assert (E : determin_value_type k (p :: qs) = match match pp_val p with Some v => vt_from_str v | None => None end with Some t => Some t | None => by_name k end)
          by (unfold determin_value_type; cbn [find]; now rewrite Q).
        rewrite E. clear E IH. apply str_eqb_eq in Q. rewrite K in Q.
        assert (W : first_named (eq (lit "VALUE")) (q :: rs) (snd q)) by (exists [], (fst q), rs; split; [now destruct q|split; [now symmetry|constructor]]).
        assert (X : forall t, match pp_val p with Some v => vt_from_str v | None => None end = Some t <-> exists n, In (n, t) registered /\ snd q = [lit n]).
        { intros t. destruct V as [->|[J ->]].
          - rewrite vt_spec. split; intros (n & I & E); exists n; (split; [exact I|]).
            + now apply joined_name with (2 := I) in E.
            + rewrite E. cbn. now rewrite app_nil_r.
          - split; [easy|]. intros (n & I & E). exfalso. apply (proj2 (no_comma_name n t I)). rewrite E in J. cbn in J. now rewrite app_nil_r in J. }
        destruct (match pp_val p with Some v => vt_from_str v | None => None end) as [t|].
        * destruct (proj1 (X t) eq_refl) as (n & I & E). split.
          -- intros H. injection H as ->. left. rewrite E in W. replace (lit "TEXT") with (lit n); [exact W|].
             clear - I. cbn [registered In] in I. repeat (destruct I as [I|I]; [first [discriminate I|now injection I as <-]|]). destruct I.
          -- intros [H|[H _]]; [|exfalso; apply (H n t I); now rewrite E in W].
             apply X. exists "TEXT"%string. split; [cbn; tauto|]. now apply (first_fun _ _ _ _ W).
        * rewrite by_name_rfc. split.
          -- intros H. right. split; [|exact H]. intros n t I Y. assert (Z : @None value_type = Some t); [|discriminate].
             apply X. exists n. split; [exact I|]. now apply (first_fun _ _ _ _ W).
          -- intros [H|[_ H]]; [|exact H]. exfalso. assert (Z : @None value_type = Some Text); [|discriminate].
             apply X. exists "TEXT"%string. split; [cbn; tauto|]. now apply (first_fun _ _ _ _ W).
      + assert (E : determin_value_type k (p :: qs) = determin_value_type k qs) by (unfold determin_value_type; cbn [find]; now rewrite Q).
        assert (N : lit "VALUE" <> fst q) by (intros B; rewrite <- K in B; rewrite <- B in Q; now rewrite str_eqb_refl in Q).
        rewrite E, (IH G2), first_cons by exact N. setoid_rewrite (first_cons _ q rs _ N). reflexivity.
  Qed.
  Lemma value_read_said : forall r qs, Forall2 param_said (rl_params r) qs -> Forall (fun q => snd q <> []) (rl_params r) ->
    (value_said r (decode_value (rl_name r) qs (rl_value r)) <-> value_kept r).
  Proof.
    intros r qs F G. pose proof (determined (rl_name r) _ _ F G) as D. fold (taken_text r) in D. unfold decode_value, value_said, value_kept.
    assert (X : determin_value_type (rl_name r) qs = Some Text \/ determin_value_type (rl_name r) qs <> Some Text)
      by (destruct (determin_value_type (rl_name r) qs) as [[]|]; first [now left|now right]).
    destruct X as [X|X].
    - rewrite X. apply D in X. split.
      + intros [A B]. split; [|split; [easy|]].
        * intros S _ a d b P E I. specialize (A S _ P E). rewrite E in A. apply (unescape_wire _ P) in A. apply A. exists a, d, b. easy.
        * intros S _ E. specialize (B S). apply unescape_shorter in E. rewrite B in E. lia.
      + intros (A & _ & B). split.
        * intros S ps P E. rewrite E. apply (unescape_wire _ P). intros (a & d & b & -> & I). exact (A S X a d b P E I).
        * intros S. now apply unescape_stable, B.
    - replace (match determin_value_type (rl_name r) qs with Some Text => unescape_text (rl_value r) | _ => rl_value r end) with (rl_value r)
        by (destruct (determin_value_type (rl_name r) qs) as [[]|]; easy).
      assert (Y : ~ taken_text r) by tauto. split.
      + intros [A B]. split; [easy|]. split; [|easy]. intros S _ ps P E. specialize (A S ps P E). rewrite E in *. now apply wire_plain.
      + intros (_ & A & _). split; [|easy]. intros S ps P E. specialize (A S Y ps P E). rewrite E in *. now apply wire_plain.
  Qed.
End Text.

(** ** Parameters *)

Lemma pvalue_unquoted : forall v t, rfc_pvalue v t -> ~ In DQ t -> t = v /\ Forall safe_char v.
Proof. intros v t [w F|w F] N; [easy|]. exfalso. apply N. now left. Qed.
Lemma pvalue_no_dq : forall v t, rfc_pvalue v t -> ~ In DQ v.
Proof.
  intros v t [w F|w F] I; rewrite Forall_forall in F; apply F in I; [destruct I as [[_ I] _]|destruct I as [_ I]]; now apply I.
Qed.
Lemma pvalues_ne : forall vs t, rfc_pvalues vs t -> vs <> [].
Proof. intros vs t []; easy. Qed.
Lemma joined_cons : forall v vs, vs <> [] -> joined (v :: vs) = v ++ COMMA :: joined vs.
Proof. intros v [|w vs] N; [easy|]. reflexivity. Qed.
Lemma joined_no_dq : forall vs t, rfc_pvalues vs t -> ~ In DQ (joined vs).
Proof.
  intros vs t V. induction V as [v t V|v t vs ts V W IH].
  - cbn. rewrite app_nil_r. now apply pvalue_no_dq in V.
  - rewrite joined_cons by (now apply pvalues_ne in W). intros I. apply in_app_or in I as [I|[I|I]]; [now apply (pvalue_no_dq _ _ V)|discriminate|tauto].
Qed.
Lemma safe_no : forall v, Forall safe_char v -> ~ In SEMI v /\ ~ In COLON v.
Proof. intros v F. rewrite Forall_forall in F. split; intros I; apply F in I as (_ & _ & A & B); [now apply B|now apply A]. Qed.
Lemma pvalues_plain : forall vs t, rfc_pvalues vs t -> ~ In DQ t -> t = joined vs /\ ~ In SEMI t /\ ~ In COLON t.
Proof.
  intros vs t V. induction V as [v t V|v t vs ts V W IH]; intros N.
  - apply pvalue_unquoted in V as [-> F]; [|exact N]. cbn. rewrite app_nil_r. split; [reflexivity|]. now apply safe_no.
  - rewrite joined_cons by (now apply pvalues_ne in W). apply pvalue_unquoted in V as [-> F]; [|intros I; apply N, in_or_app; now left].
    destruct IH as (<- & A & B); [intros I; apply N, in_or_app; right; now right|]. split; [reflexivity|]. apply safe_no in F as [F1 F2].
    split; intros I; apply in_app_or in I as [I|[I|I]]; try tauto; discriminate.
Qed.
(** Up to the first quote there is no semicolon and no colon. *)
Lemma before_quote : forall vs t, rfc_pvalues vs t -> forall a b, t = a ++ DQ :: b -> ~ In DQ a -> ~ In SEMI a /\ ~ In COLON a.
Proof.
  intros vs t V. induction V as [v t V|v t vs ts V W IH]; intros a b E N.
  - destruct V as [w F|w F].
    + exfalso. rewrite Forall_forall in F. assert (I : In DQ w) by (rewrite E; apply in_or_app; right; now left). apply F in I as [[_ I] _]. now apply I.
    + destruct a as [|c a]; [easy|]. cbn [app] in E. injection E as <- _. exfalso. apply N. now left.
  - destruct V as [w F|w F].
    + assert (X : exists a', a = w ++ COMMA :: a' /\ ts = a' ++ DQ :: b).
      { clear IH W. assert (D : ~ In DQ w) by (intros I; rewrite Forall_forall in F; apply F in I as [[_ I] _]; now apply I). clear F.
        revert a E N. induction w as [|c w IHw]; intros [|d a] E N; cbn [app] in E.
        - discriminate E.
        - injection E as <- E. exists a. easy.
        - injection E as -> _. exfalso. apply D. now left.
        - injection E as <- E. destruct (IHw ltac:(intros I; apply D; now right) a E) as (a' & -> & ->); [intros I; apply N; now right|]. exists a'. easy. }
      destruct X as (a' & -> & ->). apply safe_no in F as [F1 F2]. destruct (IH a' b eq_refl) as [A B]; [intros I; apply N, in_or_app; right; now right|].
      split; intros I; apply in_app_or in I as [I|[I|I]]; try tauto; discriminate.
    + destruct a as [|c a]; [easy|]. cbn [app] in E. injection E as <- _. exfalso. apply N. now left.
Qed.
Lemma in_first : forall (c : N) s, In c s -> exists a b, s = a ++ c :: b /\ ~ In c a.
Proof.
  intros c s. induction s as [|d s IH]; [easy|]. intros I. destruct (N.eq_dec d c) as [->|D].
  - exists [], s. easy.
  - destruct I as [I|I]; [now exfalso|]. destruct (IH I) as (a & b & -> & Q). exists (d :: a), b. split; [reflexivity|]. intros [J|J]; auto.
Qed.
Lemma name_stop : forall {U : Unicode} a b x y r s, name_ok a -> name_ok b -> ~ key_char x -> ~ key_char y -> a ++ x :: r = b ++ y :: s -> a = b /\ x :: r = y :: s.
Proof.
  intros U a b x y r s A B X Y E. destruct (stop_unique key_char a b x y r s A B X Y E) as (-> & -> & ->). easy.
Qed.
Lemma token_name : forall {U : Unicode} k, token k -> name_ok k.
Proof.
  intros U k [_ F]. eapply Forall_impl; [|exact F]. intros c C. unfold token_char in C. destruct (N.eq_dec c 45) as [->|D]; [left; cbn; tauto|]. right.
  unfold is_alnum, is_digit, is_upper, is_lower_ascii, in_range. replace (c <? 128)%N with true by lia. lia.
Qed.
Lemma kept_forms : forall ps ts, kept_params ps ts -> forall (U : Unicode), Forall (fun q => token (fst q)) ps ->
  exists qs, Forall wparam_ok qs /\ ts = concat (map wparam_text qs) /\ Forall2 param_said ps (map wparam_read qs).
Proof.
  intros ps ts K U. induction K as [|k vs t ps ts V O K IH]; intros T.
  - exists []. now repeat constructor.
  - inversion T as [|? ? T1 T2]; subst. cbn [fst] in T1. destruct (IH T2) as (qs & Q & -> & R).
    assert (X : exists q, wparam_ok q /\ wparam_text q = SEMI :: k ++ EQUALS :: t /\ param_said (k, vs) (wparam_read q)).
    { assert (P : ~ In DQ t -> exists q, wparam_ok q /\ wparam_text q = SEMI :: k ++ EQUALS :: t /\ param_said (k, vs) (wparam_read q)).
      { intros D. destruct (pvalues_plain _ _ V D) as (E & A & B). destruct t as [|c t].
        - exists (mk_wparam k FEmpty). split; [split; [now apply token_name|easy]|]. split; [reflexivity|]. split; [reflexivity|]. right. now split.
        - exists (mk_wparam k (FPlain (c :: t))). split; [|split; [reflexivity|split; [reflexivity|left; now rewrite E]]].
          split; [now apply token_name|]. cbn [wp_form]. split; [easy|]. split; [easy|]. split; [easy|]. intros [r H]. injection H as -> _. apply D. now left. }
      destruct O as [D|(v & N & ->)]; [now apply P|].
      inversion V as [v' t' V' Ev Et|? ? ? ? ? W]; subst; [|now apply pvalues_ne in W]. destruct V' as [w F|w F].
      - apply P. intros I. rewrite Forall_forall in F. apply F in I as [[_ I] _]. now apply I.
      - exists (mk_wparam k (FQuoted w)). split; [split; [now apply token_name|]|split; [reflexivity|split; [reflexivity|left; cbn; now rewrite app_nil_r]]].
        split; [exact N|]. intros I. rewrite Forall_forall in F. apply F in I as [_ I]. now apply I. }
    destruct X as (q & X1 & X2 & X3). exists (q :: qs). split; [now constructor|]. split; [|now constructor].
    cbn [map concat]. rewrite X2. cbn [app]. rewrite <- app_assoc. reflexivity.
Qed.


Lemma sep_no_key : forall {U : Unicode} c, In c [SEMI; COLON; EQUALS; DQ; CR; LF; SP; TAB] -> ~ key_char c.
Proof.
  intros U c I [K|K].
  - cbn [In] in I, K. unfold SEMI, COLON, EQUALS, DQ, CR, LF, SP, TAB in I. lia.
  - cbn [In] in I. unfold SEMI, COLON, EQUALS, DQ, CR, LF, SP, TAB in I. unfold is_alnum, is_digit, is_upper, is_lower_ascii, in_range in K. replace (c <? 128)%N with true in K by lia. lia.
Qed.
Lemma token_head : forall {U : Unicode} k s, token k -> exists c r, k ++ s = c :: r /\ key_char c /\ k = c :: firstn (length k - 1) r.
Proof.
  intros U k s T. pose proof (token_name k T) as K. destruct k as [|c k]; [now destruct T|]. inversion K; subst. exists c, (k ++ s). split; [reflexivity|]. split; [assumption|].
  cbn [length]. rewrite Nat.sub_succ, Nat.sub_0_r, firstn_app, Nat.sub_diag, firstn_all, firstn_O, app_nil_r. reflexivity.
Qed.
(** Blanks before a token are none. *)
Lemma no_white : forall {U : Unicode} (P : char -> Prop) w k s r, Forall P w -> (forall c, P c -> ~ key_char c) -> token k -> w ++ s = k ++ r -> w = [].
Proof.
  intros U P w k s r W D T E. destruct w as [|c w]; [reflexivity|]. exfalso. destruct (token_head k r T) as (d & q & H & K & _). rewrite H in E.
  injection E as -> _. inversion W; subst. eapply D; eassumption.
Qed.
Lemma params_heads : forall ps ts v, rfc_params ps ts -> exists c r, ts ++ COLON :: v = c :: r /\ In c [SEMI; COLON].
Proof. intros ps ts v [|k vs t qs us K V P]; cbn [app]; eexists _, _; (split; [reflexivity|]); cbn; tauto. Qed.
(** One parameter: if it is read as it says, it is kept, and all of it is read. *)
Lemma value_exact : forall vs t rest o t' rest', rfc_pvalues vs t -> param_end rest -> rest <> [] ->
  value_read o t' rest' -> t' ++ rest' = t ++ rest -> (o = Some (joined vs) \/ joined vs = [] /\ o = None) ->
  (~ In DQ t \/ exists v, v <> [] /\ vs = [v]) /\ t' = t /\ rest' = rest.
Proof.
  intros vs t rest o t' rest' V E NE R Q O.
  assert (H : exists c r, rest = c :: r /\ (c = SEMI \/ c = COLON)).
  { destruct E as [->|[[r ->]|[r ->]]]; [easy| |]; cbn [app]; eauto. }
  destruct H as (c & r & -> & C). destruct R as [v q NV D|v q NV A B P NQ|q P].
  - (* quoted *)
    assert (v = joined vs) as J by (destruct O as [O|[_ O]]; [now injection O|discriminate]).
    assert (S : vs = [v] /\ t = DQ :: v ++ [DQ] \/ exists ws, ws <> [] /\ vs = v :: ws).
    { destruct V as [u t V|u t vs ts V V'].
        + left. destruct V as [u F|u F].
          * exfalso. cbn [app] in Q. destruct u as [|d u].
            -- cbn [app] in Q. injection Q as Q _. destruct C as [-> | ->]; discriminate Q.
            -- cbn [app] in Q. injection Q as <- _. inversion F as [|? ? [[_ X] _] _]; subst. now apply X.
          * cbn in J. rewrite app_nil_r in J. now subst u.
        + right. destruct V as [u F|u F].
          * exfalso. destruct u as [|d u]; cbn [app] in Q; [discriminate Q|]. injection Q as <- _. inversion F as [|? ? [[_ X] _] _]; subst. now apply X.
          * exists vs. split; [now apply pvalues_ne in V'|]. f_equal. clear - Q D F. cbn [app] in Q. injection Q as Q.
            rewrite <- !app_assoc in Q. cbn [app] in Q.
            assert (ND : ~ In DQ u) by (intros I; rewrite Forall_forall in F; apply F in I as [_ I]; now apply I).
            assert (FV : Forall (fun c => c <> DQ) v) by (rewrite Forall_forall; intros x I ->; auto).
            assert (FU : Forall (fun c => c <> DQ) u) by (rewrite Forall_forall; intros x I ->; auto).
            apply (stop_unique _ _ _ _ _ _ _ FV FU) in Q as (-> & _); [reflexivity|intros X; now apply X|intros X; now apply X]. }
    destruct S as [[-> ->]|(ws & NW & ->)].
    + split; [right; exists v; now split|]. split; [reflexivity|]. apply app_inv_head in Q. exact Q.
    + exfalso. rewrite joined_cons in J by exact NW. apply (f_equal (@length N)) in J. rewrite app_length in J. cbn [length] in J. lia.
  - (* plain *)
    assert (v = joined vs) as J by (destruct O as [O|[_ O]]; [now injection O|discriminate]).
    assert (DV : ~ In DQ v) by (rewrite J; now apply joined_no_dq in V).
    destruct (in_dec N.eq_dec DQ t) as [I|I].
    + exfalso. destruct (in_first _ _ I) as (a & b & -> & NA). destruct (before_quote _ _ V a b eq_refl NA) as [A1 A2].
      rewrite <- app_assoc in Q. cbn [app] in Q.
      assert (FV : Forall (fun c => c <> DQ /\ c <> SEMI /\ c <> COLON) v) by (rewrite Forall_forall; intros d I' ; repeat split; intros ->; auto).
      assert (FA : Forall (fun c => c <> DQ /\ c <> SEMI /\ c <> COLON) a) by (rewrite Forall_forall; intros d I' ; repeat split; intros ->; auto).
      destruct P as [->|[[q' ->]|[q' ->]]].
      * rewrite app_nil_r in Q. apply DV. rewrite Q. apply in_or_app. right. now left.
      * cbn [app] in Q. apply (stop_unique _ _ _ _ _ _ _ FV FA) in Q as (_ & Q & _); [discriminate Q|intros (_ & X & _); now apply X|intros (X & _); now apply X].
      * cbn [app] in Q. apply (stop_unique _ _ _ _ _ _ _ FV FA) in Q as (_ & Q & _); [discriminate Q|intros (_ & _ & X); now apply X|intros (X & _); now apply X].
    + split; [now left|]. destruct (pvalues_plain _ _ V I) as (E1 & _ & _). rewrite <- E1 in J. subst v. apply app_inv_head in Q. now subst q.
  - (* none *)
    assert (J : joined vs = []) by (destruct O as [O|[O _]]; [discriminate|exact O]). cbn [app] in Q.
    destruct vs as [|v [|w vs]].
    + now apply pvalues_ne in V.
    + cbn in J. rewrite app_nil_r in J. subst v. inversion V as [? ? W|? ? ? ? ? W]; subst; [|now apply pvalues_ne in W].
      inversion W; subst.
      * split; [left; easy|]. easy.
      * exfalso. destruct P as [P|[[x P]|[x P]]]; discriminate P.
    + exfalso. rewrite joined_cons in J by easy. now destruct v.
Qed.
Lemma params_exact : forall {U : Unicode} ps ts v, rfc_params ps ts -> forall qs t rest, params_read qs t rest -> t ++ rest = ts ++ COLON :: v ->
  Forall2 param_said ps qs -> kept_params ps ts /\ t = ts /\ rest = COLON :: v.
Proof.
  intros U ps ts v P. induction P as [|k vs t ps ts K V P IH]; intros qs t' rest R E F.
  - inversion F; subst. inversion R; subst. cbn [app] in E. split; [constructor|]. now split.
  - inversion F as [|? q ? qs' [F1 F2] F3]; subst. inversion R as [|? ? s t2 ? R1 R2]; subst. cbn [fst snd] in F1, F2.
    destruct (params_heads ps ts v P) as (c & r & H & C).
    assert (X : exists w s', s = SEMI :: w ++ k ++ s' /\ (forall x, In x w -> x = SP \/ x = TAB)).
    { inversion R1 as [k0 o w0 t0 rest0 B0 K0 V0 EQ ER|k0 w0 rest0 B0 K0 N0 N1 N2 EQ ER]; subst q; cbn [pp_key] in F1; subst k0.
      - exists w0, (EQUALS :: t0). split; [reflexivity|]. unfold SpecDoc.blank in B0. rewrite Forall_forall in B0. exact B0.
      - exists w0, []. rewrite app_nil_r. split; [reflexivity|]. unfold SpecDoc.blank in B0. rewrite Forall_forall in B0. exact B0. }
    destruct X as (w & s' & -> & W). rewrite <- app_comm_cons, <- !app_assoc in E. cbn [app] in E. injection E as E.
    rewrite <- !app_assoc in E. assert (w = []) as ->.
    { eapply (no_white (fun x => x = SP \/ x = TAB) w k _ _); [now apply Forall_forall| |exact K|exact E]. intros x [-> | ->]; apply sep_no_key; cbn; tauto. }
    cbn [app] in E. apply app_inv_head in E.
    inversion R1 as [k0 o w0 t0 rest0 B0 K0 V0 EQ ER|k0 w0 rest0 B0 K0 N0 N1 N2 EQ ER]; subst q; cbn [pp_key pp_val] in F1, F2; subst k0.
    + assert (w0 = []) as ->.
      { apply (no_white (fun x => x = SP \/ x = TAB) w0 k (k ++ EQUALS :: t0) s'); [exact B0| |exact K|exact ER].
        intros x [-> | ->]; apply sep_no_key; cbn; tauto. }
      cbn [app] in ER. apply app_inv_head in ER. subst s'. cbn [app] in E. injection E as E. rewrite <- app_assoc in E.
      rewrite H in E. apply (value_exact vs t (c :: r) o t0 (t2 ++ rest) V) in E as (O & -> & E); [| | |exact V0|exact F2].
      * rewrite <- H in E. apply (IH _ _ _ R2) in E as (KP & -> & ->); [|exact F3]. split; [now constructor|]. split; [|reflexivity]. cbn [app]. rewrite <- app_assoc. reflexivity.
      * destruct C as [<-|[<-|[]]]; [right; left|right; right]; now exists r.
      * discriminate.
    + exfalso. assert (w0 = []) as ->.
      { apply (no_white (fun x => x = SP \/ x = TAB) w0 k k s'); [exact B0| |exact K|exact ER].
        intros x [-> | ->]; apply sep_no_key; cbn; tauto. }
      cbn [app] in ER. assert (s' = []) as ->.
      { apply (f_equal (@length N)) in ER. rewrite app_length in ER. destruct s'; [reflexivity|]. cbn [length] in ER. lia. }
      cbn [app] in E. apply N1. rewrite E. eexists. reflexivity.
Qed.

(** ** Lines *)

Lemma property_head : forall r l, rfc_line r l -> exists c q, l = rl_name r ++ c :: q /\ In c [SEMI; COLON].
Proof.
  intros r l (_ & _ & ts & P & ->). destruct (params_heads _ _ (rl_value r) P) as (c & q & H & C). exists c, q. split; [|exact C]. now rewrite <- H.
Qed.
Lemma lower_upper : forall a b, map lower_ascii a = map lower_ascii b -> map ascii_upper a = map ascii_upper b.
Proof.
  intros a b E. assert (X : forall s, map ascii_upper (map lower_ascii s) = map ascii_upper s).
  { intros s. rewrite map_map. apply map_ext. intros c. unfold ascii_upper, lower_ascii, is_upper, in_range.
    destruct ((65 <=? c) && (c <=? 90))%N eqn:Q; [|reflexivity].
    replace ((97 <=? c + 32) && (c + 32 <=? 122))%N with true by lia. replace ((97 <=? c) && (c <=? 122))%N with false by lia. lia. }
  rewrite <- (X a), <- (X b). now rewrite E.
Qed.
Lemma keyword_name : forall w k c q, map ascii_upper k <> map ascii_upper w -> In w [lit "begin"; lit "end"] -> token k -> In c [SEMI; COLON] ->
  ~ keyword (w ++ [COLON]) (k ++ c :: q).
Proof.
  intros w k c q N W T C (kk & r & L & E).
  assert (X : exists a, kk = a ++ [COLON] /\ map lower_ascii a = w).
  { destruct (exists_last (l := kk)) as (a & x & ->); [intros ->; destruct w; discriminate L|]. rewrite map_app in L. cbn [map] in L.
    apply app_inj_tail in L as [L1 L2]. exists a. split; [|exact L1]. f_equal. f_equal. unfold lower_ascii, is_upper, in_range in L2. unfold COLON in *.
    destruct ((65 <=? x) && (x <=? 90))%N eqn:Q; lia. }
  destruct X as (a & -> & L1). rewrite <- app_assoc in E. cbn [app] in E.
  assert (A : Forall token_char a).
  { assert (B : Forall (fun x => In (lower_ascii x) w) a) by (apply Forall_forall; intros x I; rewrite <- L1; now apply in_map).
    eapply Forall_impl; [|exact B]. intros x I. unfold lower_ascii, is_upper, in_range in I. unfold token_char.
    destruct W as [<-|[<-|[]]]; cbn [lit list_ascii_of_string map In] in I; vm_compute N_of_ascii in I; destruct ((65 <=? x) && (x <=? 90))%N eqn:Q; lia. }
  destruct T as [_ T]. apply (stop_unique _ _ _ _ _ _ _ T A) in E as (-> & _).
  - apply N, lower_upper. rewrite L1. destruct W as [<-|[<-|[]]]; reflexivity.
  - apply tokenless. destruct C as [<-|[<-|[]]]; cbn; tauto.
  - apply tokenless. cbn. tauto.
Qed.
Lemma property_no_keyword : forall r l rest, property_name (rl_name r) -> rfc_line r l -> ~ begins (l ++ rest) /\ ~ ends (l ++ rest).
Proof.
  intros r l rest (T & N1 & N2) L. destruct (property_head r l L) as (c & q & -> & C). rewrite <- app_assoc. cbn [app].
  split; [apply (keyword_name (lit "begin"))|apply (keyword_name (lit "end"))]; cbn [In]; auto.
Qed.
Definition ended (ls : list str) : str := concat (map (fun l => l ++ [CR; LF]) ls).
Lemma after_crlf : forall b r, after_breaks (CR :: LF :: b) r -> no_break_next b -> r = b.
Proof.
  intros b r (x & B & E & N) [NB1 NB2]. destruct B as [|y s Y B].
  - exfalso. cbn [app] in E. apply N. exists b. now symmetry.
  - destruct Y as [-> | ->]; cbn [app] in E; [|discriminate E]. injection E as E. destruct B as [|y s Y B]; [now symmetry|].
    exfalso. destruct Y as [-> | ->]; cbn [app] in E; [apply NB2|apply NB1]; eexists; rewrite E; reflexivity.
Qed.
Lemma value_no_crlf : forall v, Forall value_char v -> ~ has_crlf v.
Proof. intros v F (a & b & ->). apply Forall_app in F as [_ F]. inversion F as [|? ? X _]; subst. apply X. unfold control, CR. lia. Qed.
Lemma cut_there : forall v rest v' rest', Forall value_char v -> value_cut v' rest' -> v' ++ rest' = v ++ CR :: LF :: rest -> v' = v /\ rest' = CR :: LF :: rest.
Proof.
  intros v rest v' rest' F C E.
  assert (V : ~ In CR v /\ ~ In LF v) by (rewrite Forall_forall in F; split; intros I; apply F in I; apply I; [unfold control, CR|unfold control, LF]; lia).
  destruct C as [[[q ->] N]|[([q ->] & N & H)|[-> N]]].
  - cbn [app] in E. revert v' N E. clear F. induction v as [|c v IH]; intros v' N E.
    + destruct v' as [|d v']; [cbn [app] in E; injection E as ->; easy|]. exfalso. cbn [app] in E. injection E as -> E.
      destruct v' as [|e v']; cbn [app] in E; [discriminate E|]. injection E as -> _. apply N. now exists [], v'.
    + destruct v' as [|d v']; cbn [app] in E.
      * injection E as <- _. exfalso. apply (proj1 V). now left.
      * injection E as -> E. cbn [In] in V. destruct (IH ltac:(tauto) v') as [-> R]; [|exact E|now split].
        intros (x & y & ->). apply N. now exists (c :: x), y.
  - exfalso. rewrite E in H. apply H. now exists v, rest.
  - exfalso. rewrite app_nil_r in E. subst v'. apply N, in_or_app. right. right. now left.
Qed.
Lemma line_there : forall {U : Unicode} r l rest, rfc_line r l -> rl_params r = [] -> exists p x, line_left (l ++ CR :: LF :: rest) p x.
Proof.
  intros U r l rest (T & V & ts & P & ->) E. rewrite E in P. inversion P; subst.
  eexists _, _. exists [], (rl_name r), [], [], (rl_value r). split; [cbn [app]; rewrite <- app_assoc; cbn [app]; reflexivity|].
  split; [constructor|]. split; [now apply token_name|]. split; [constructor; intros [q H]; discriminate H|]. split; [|reflexivity].
  left. split; [now exists rest|]. now apply value_no_crlf.
Qed.
Lemma line_exact : forall {U : Unicode} r l rest p j, property_name (rl_name r) -> rfc_line r l -> no_break_next rest ->
  item_reads (l ++ CR :: LF :: rest) p j -> line_said r p -> line_kept r l /\ j = rest.
Proof.
  intros U r l rest p j N L NB (j0 & (NR & x & AB & H) & ABS) (S1 & S2 & S3).
  assert (NN : forall w, In w [lit "END"; lit "BEGIN"] -> ~ has_prefix w (rl_name r)).
  { intros w W [q Q]. apply NR. destruct (property_head r l L) as (c & qq & -> & _). rewrite Q. exists [], (q ++ (c :: qq) ++ CR :: LF :: rest).
    split; [constructor|]. rewrite <- !app_assoc. destruct W as [<-|[<-|[]]]; [left|right]; reflexivity. }
  destruct H as [(w & k & qs & t & v & E & W & K & P & C & ->)|(NL & k & E & K & KE & ->)].
  - cbn [Parser.pr_name pr_params pr_val] in S1, S2, S3. subst k. destruct L as (T & V & ts & R & ->).
    rewrite <- !app_assoc in E. cbn [app] in E. assert (w = []) as ->.
    { symmetry in E. eapply (no_white (fun c => In c [SP; TAB; CR; LF]) w (rl_name r) _ _); [exact W| |exact T|exact E]. intros c C'. apply sep_no_key. cbn in *. tauto. }
    cbn [app] in E. apply app_inv_head in E. symmetry in E. pose proof E as E'.
    apply (params_exact _ _ _ R qs t _ P) in E as (KP & -> & E); [|exact S2].
    injection E as E. apply (cut_there _ _ _ _ V C) in E as [-> ->].
    split.
    + split; [apply NN; cbn; tauto|]. split; [apply NN; cbn; tauto|]. split; [exists ts; now split|].
      apply (value_read_said r qs S2); [|exact S3]. clear - R. induction R as [|k vs t ps ts T V R IH]; constructor; [now apply pvalues_ne in V|exact IH].
    + assert (j0 = rest) as ->.
      { destruct AB as [(b & [-> | ->] & B)|[[_ Z] _]]; cbn [app] in *; [now injection B| discriminate B|exfalso; apply Z; now exists rest]. }
      destruct ABS as (b & B & -> & NJ). destruct B as [|y s Y B]; [reflexivity|]. exfalso. destruct NB as [NB1 NB2].
      destruct Y as [-> | ->]; [apply NB2|apply NB1]; eexists; rewrite <- !app_assoc; reflexivity.
  - exfalso. cbn [pr_params] in S2. inversion S2 as [PE|]; subst. symmetry in PE. destruct (line_there r l rest L PE) as (p & y & X). exact (NL p y X).
Qed.

(** ** Components *)

Lemma ended_cons : forall l ls rest, ended (l :: ls) ++ rest = l ++ CR :: LF :: ended ls ++ rest.
Proof. intros l ls rest. unfold ended. cbn [map concat]. rewrite <- !app_assoc. reflexivity. Qed.
Lemma ended_app : forall a b, ended (a ++ b) = ended a ++ ended b.
Proof. intros a b. unfold ended. now rewrite map_app, concat_app. Qed.
Lemma solid_next : forall l ls rest, solid l -> no_break_next (ended (l :: ls) ++ rest).
Proof.
  intros l ls rest (_ & c & r & -> & C). rewrite ended_cons. cbn [app]. split; intros [q E]; injection E as -> _; unfold token_char, CR, LF in C; lia.
Qed.
Lemma token_solid_lines : forall k, token k -> solid (lit "BEGIN:" ++ k) /\ solid (lit "END:" ++ k).
Proof. intros k K. split; eapply line_solid; [now apply RfcProofs.begin_line|now apply RfcProofs.end_line]. Qed.
Lemma keyword_cut : forall w kw k n i rest, map lower_ascii w = kw -> length w = length k -> w ++ n ++ i = k ++ rest -> w = k /\ n ++ i = rest.
Proof.
  intros w kw k n i rest _ L E. assert (H : forall (a b x y : str), length a = length b -> a ++ x = b ++ y -> a = b /\ x = y).
  { clear. induction a as [|c a IH]; intros [|d b] x y L E; try discriminate L; [easy|]. cbn [app] in E. injection E as -> E. injection L as L. destruct (IH b x y L E) as [-> ->]. easy. }
  now apply H.
Qed.
Lemma comp_inv : forall {U : Unicode} i c r, comp_reads i c r -> exists kb n x j ps cs,
  i = kb ++ n ++ x /\ c = mk_pcomp n ps cs /\ map lower_ascii kb = lit "begin:" /\ after_breaks x j /\ body_reads n j ps cs r /\ name_ok n /\ name_ends x.
Proof. intros U i c r H. destruct H as [kb n x j ps cs r L N E A B]. exists kb, n, x, j, ps, cs. now repeat split. Qed.
Lemma comp_begins : forall {U : Unicode} i c r, comp_reads i c r -> begins i.
Proof. intros U i c r H. apply comp_inv in H as (kb & n & x & _ & _ & _ & -> & _ & L & _). now exists kb, (n ++ x). Qed.
Lemma stuck_begins : forall {U : Unicode} i, comp_stuck i -> begins i.
Proof. intros U i H. destruct H as [kb n x j L _ _ _ _]. now exists kb, (n ++ x). Qed.
Lemma body_inv : forall {U : Unicode} n i ps cs r, body_reads n i ps cs r ->
  (exists ke x, i = ke ++ n ++ x /\ ps = [] /\ cs = [] /\ map lower_ascii ke = lit "end:" /\ after_breaks x r)
  \/ (exists c j cs', cs = c :: cs' /\ comp_reads i c j /\ body_reads n j ps cs' r)
  \/ (exists p j ps', ps = p :: ps' /\ item_reads i p j /\ body_reads n j ps' cs r).
Proof.
  intros U n i ps cs r H. destruct H as [n ke x r L A|n i c j ps cs r C B|n i p j ps cs r E1 E2 I J B|n i p j ps cs r C I B].
  - left. now exists ke, x.
  - right. left. now exists c, j, cs.
  - right. right. now exists p, j, ps.
  - right. right. now exists p, j, ps.
Qed.
Lemma component_exact : forall {U : Unicode} t ls, rfc_component t ls -> forall c rest j, no_break_next rest ->
  comp_reads (ended ls ++ rest) c j -> component_said t c -> component_kept t ls /\ j = rest.
Proof.
  intros U. induction t as [k rs cs IH] using rtree_deep. intros ls C c rest j NB R S.
  inversion C as [? ? ps ? lss K P Q]; subst. clear C. inversion S as [? ? ? pps pcs S1 S2]; subst. clear S.
  apply comp_inv in R as (kb & n & i & j0 & ? & ? & E1 & E2 & L & AB & B & _). injection E2 as <- <- <-. symmetry in E1.
  rewrite ended_cons, <- app_assoc in E1. apply (keyword_cut _ _ _ _ _ _ L) in E1 as [-> E1].
  2: { apply (f_equal (@length N)) in L. rewrite map_length in L. rewrite L. reflexivity. }
  apply app_inv_head in E1. subst i.
  assert (SL : Forall solid (ps ++ concat lss ++ [lit "END:" ++ k])).
  { apply Forall_app. split; [|apply Forall_app; split].
    - clear - P. induction P as [|r l rs ps [_ H] _ IH]; constructor; [now apply line_solid in H|exact IH].
    - clear - Q. induction Q as [|c ls cs lss H _ IHS]; [constructor|]. cbn [concat]. apply Forall_app. split; [now apply component_solid in H|exact IHS].
    - constructor; [|constructor]. now apply token_solid_lines. }
  assert (NX : forall x y, Forall solid (x ++ [y]) -> no_break_next (ended (x ++ [y]) ++ rest)).
  { intros [|z x] y F; cbn [app] in *; inversion F; subst; now apply solid_next. }
  rewrite !app_assoc in SL, AB. apply after_crlf in AB; [|now apply NX]. subst j0. rewrite <- !app_assoc in B.
  assert (G : Forall2 (fun r l => (property_name (rl_name r) /\ rfc_line r l) /\ line_kept r l) rs ps /\ Forall2 component_kept cs lss /\ j = rest).
  { revert pps S1 B SL. induction P as [|r l rs ps [PN PL] P IHP]; intros pps S1 B SL.
    - inversion S1; subst. clear S1. cbn [app] in B. assert (X : Forall2 component_kept cs lss /\ j = rest); [|destruct X; split; [constructor|now split]].
      revert pcs S2 B SL. induction Q as [|c ls cs lss H Q IHQ]; intros pcs S2 B SL.
      + inversion S2; subst. cbn [concat app] in B. rewrite ended_cons, <- app_assoc in B. cbn [ended map concat app] in B.
        apply body_inv in B as [(ke & i & E2 & _ & _ & LE & AB)|[(? & ? & ? & X & _)|(? & ? & ? & X & _)]]; [|discriminate X|discriminate X].
        symmetry in E2. apply (keyword_cut _ _ _ _ _ _ LE) in E2 as [-> E2].
        2: { apply (f_equal (@length N)) in LE. rewrite map_length in LE. rewrite LE. reflexivity. }
        apply app_inv_head in E2. subst i. apply after_crlf in AB; [|exact NB]. split; [constructor|exact AB].
      + inversion S2 as [|? c' ? pcs' S3 S4]; subst. inversion IH as [|? ? I1 I2]; subst.
        cbn [concat] in B, SL. rewrite ended_app in B. rewrite <- !app_assoc in B. rewrite ended_app in B. rewrite <- !app_assoc in B.
        apply body_inv in B as [(? & ? & _ & _ & X & _)|[(? & jj & ? & X & CR & BR)|(? & ? & ? & X & _)]]; [discriminate X| |discriminate X].
        injection X as <- <-.
        rewrite app_nil_l in SL. rewrite <- app_assoc in SL. apply Forall_app in SL as [_ SL].
        assert (jj = ended (concat lss ++ [lit "END:" ++ k]) ++ rest /\ component_kept c ls) as [-> CK].
        { apply (I1 ls H c' _ _) in CR as [A1 A2]; [| |exact S3].
          - split; [|exact A1]. rewrite A2, ended_app, <- app_assoc. reflexivity.
          - rewrite app_assoc, <- ended_app. now apply NX. }
        destruct (IHQ I2 pcs' S4 BR) as [D ->]; [now rewrite app_nil_l|]. split; [now constructor|reflexivity].
    - inversion S1 as [|? p ? pps' S3 S4]; subst. cbn [app] in B. rewrite ended_cons in B.
      destruct (property_no_keyword r l (CR :: LF :: ended (ps ++ concat lss ++ [lit "END:" ++ k]) ++ rest) PN PL) as [NBG NEN].
      rewrite <- !app_assoc in SL. inversion SL as [|? ? _ SL']; subst.
      assert (NBN : no_break_next (ended (ps ++ concat lss ++ [lit "END:" ++ k]) ++ rest)) by (rewrite app_assoc; apply NX; now rewrite <- app_assoc).
      apply body_inv in B as [(? & ? & _ & X & _)|[(? & ? & ? & _ & CR & _)|(? & jj & ? & X & IR & BR)]]; [discriminate X| |].
      + exfalso. apply NBG. eapply comp_begins. exact CR.
      + injection X as <- <-. destruct (line_exact r l _ p jj PN PL NBN IR S3) as [LK ->].
        destruct (IHP pps' S4 BR) as (A1 & A2 & ->); [now rewrite <- app_assoc|]. split; [constructor; [now split|exact A1]|]. now split. }
  destruct G as (G1 & G2 & ->). split; [now constructor|reflexivity].
Qed.
Lemma kept_rfc : forall t ls, component_kept t ls -> rfc_component t ls.
Proof.
  induction t as [k rs cs IH] using rtree_deep. intros ls C. inversion C as [? ? ps ? lss K P Q]; subst. constructor; [exact K| |].
  - clear - P. induction P as [|r l rs ps [H _] P IH]; constructor; assumption.
  - clear - IH Q. induction Q as [|c l cs lss H Q IHQ]; [constructor|]. inversion IH; subst. constructor; auto.
Qed.
Lemma not_words : forall k, map ascii_upper k <> [66; 69; 71; 73; 78]%N -> map ascii_upper k <> [69; 78; 68]%N ->
  map lower_ascii k <> lit "end" /\ map lower_ascii k <> lit "begin".
Proof.
  intros k A B. split; intros E; [apply B; change [69; 78; 68]%N with (map ascii_upper (lit "end"))|apply A; change [66; 69; 71; 73; 78]%N with (map ascii_upper (lit "begin"))]; apply lower_upper; rewrite E; reflexivity.
Qed.
Lemma params_tokens : forall ps ts, rfc_params ps ts -> Forall (fun q => token (fst q)) ps /\ Forall (fun q => snd q <> []) ps.
Proof. intros ps ts P. induction P as [|k vs t ps ts K V P [IH1 IH2]]; split; constructor; try assumption. now apply pvalues_ne in V. Qed.
Lemma line_form : forall {U : Unicode} r l, property_name (rl_name r) -> rfc_line r l -> line_kept r l ->
  exists w, wline_ok CrLf w /\ l = wline_text w /\ line_said r (wline_read w).
Proof.
  intros U r l (T & N1 & N2) (_ & V & ts & P & _) (K1 & K2 & (us & KP & ->) & KV). destruct (params_tokens _ _ P) as [T1 T2].
  destruct (kept_forms _ _ KP U T1) as (qs & Q & -> & S). exists (LValue (rl_name r) qs (rl_value r)).
  split; [|split; [reflexivity|]].
  - split; [|split; [exact Q|now apply value_no_crlf]]. split; [now apply token_name|]. split; [exact K1|]. split; [exact K2|]. now apply not_words.
  - split; [reflexivity|]. split; [exact S|]. now apply value_read_said.
Qed.
Lemma component_form : forall {U : Unicode} t ls, component_kept t ls ->
  exists w, wtree_ok CrLf w /\ wtree_text CrLf w (ended ls) /\ component_said t (wtree_read w).
Proof.
  intros U. induction t as [k rs cs IH] using rtree_deep. intros ls C. inversion C as [? ? ps ? lss K P Q]; subst. clear C.
  assert (A : exists ws, Forall (wline_ok CrLf) ws /\ ps = map wline_text ws /\ Forall2 line_said rs (map wline_read ws)).
  { induction P as [|r l rs ps [[PN PL] PK] P IHP]; [exists []; now repeat constructor|]. destruct IHP as (ws & W1 & -> & W2).
    destruct (line_form r l PN PL PK) as (w & W3 & -> & W4). exists (w :: ws). split; [now constructor|]. split; [reflexivity|now constructor]. }
  assert (B : exists us, Forall (wtree_ok CrLf) us /\ Forall2 (wtree_text CrLf) us (map ended lss) /\ Forall2 component_said cs (map wtree_read us)).
  { clear - IH Q. induction Q as [|c l cs lss H Q IHQ]; [exists []; now repeat constructor|]. inversion IH as [|? ? I1 I2]; subst. destruct (IHQ I2) as (us & W1 & W2 & W3).
    destruct (I1 _ H) as (u & W4 & W5 & W6). exists (u :: us). split; [now constructor|]. split; now constructor. }
  destruct A as (ws & A1 & -> & A2). destruct B as (us & B1 & B2 & B3).
  exists (W k (map inl ws ++ map inr us)). split; [|split].
  - constructor; [now apply token_name|]. apply Forall_app. split; rewrite Forall_map; [eapply Forall_impl; [|exact A1]|eapply Forall_impl; [|exact B1]]; intros x X; now constructor.
  - assert (E : ended ((lit "BEGIN:" ++ k) :: map wline_text ws ++ concat lss ++ [lit "END:" ++ k])
      = lit "BEGIN:" ++ k ++ [CR; LF] ++ concat (map (fun w => wline_text w ++ [CR; LF]) ws ++ map ended lss) ++ lit "END:" ++ k ++ [CR; LF]).
    { rewrite <- (app_nil_r (ended _)), ended_cons, !ended_app, concat_app, <- !app_assoc. f_equal. f_equal. cbn [app]. f_equal. f_equal.
      assert (E1 : ended (map wline_text ws) = concat (map (fun w => wline_text w ++ [CR; LF]) ws)) by (unfold ended; now rewrite map_map).
      assert (E2 : ended (concat lss) = concat (map ended lss)).
      { clear. induction lss as [|l lss IH]; [reflexivity|]. cbn [concat map]. now rewrite ended_app, IH. }
      rewrite E1, E2. f_equal. f_equal. rewrite ended_cons, <- app_assoc. reflexivity. }
    rewrite E. constructor; try reflexivity.
    + exists []. split; [reflexivity|constructor].
    + exists []. split; [reflexivity|constructor].
    + apply Forall2_app.
      * clear. induction ws as [|w ws IH]; constructor; [|exact IH]. constructor. exists [CR; LF]. split; [exists []; split; [reflexivity|constructor]|reflexivity].
      * clear - B2. induction B2 as [|u s us ss H B2 IH]; constructor; [|exact IH]. now constructor.
  - cbn [wtree_read].
    assert (E1 : flat_map (fun x : wline + wtree => match x with inl l => [wline_read l] | inr _ => [] end) (map inl ws ++ map inr us) = map wline_read ws).
    { rewrite flat_map_app. assert (X : flat_map (fun x : wline + wtree => match x with inl l => [wline_read l] | inr _ => [] end) (map inr us) = []).
      { clear. induction us as [|u us IH]; [reflexivity|exact IH]. }
      rewrite X, app_nil_r. clear. induction ws as [|w ws IH]; [reflexivity|]. cbn [map flat_map app]. now rewrite IH. }
    assert (E2 : flat_map (fun x : wline + wtree => match x with inl l => [] | inr t => [wtree_read t] end) (map inl ws ++ map inr us) = map wtree_read us).
    { rewrite flat_map_app. assert (X : flat_map (fun x : wline + wtree => match x with inl l => [] | inr t => [wtree_read t] end) (map inl ws) = []).
      { clear. induction ws as [|w ws IH]; [reflexivity|exact IH]. }
      rewrite X. clear. induction us as [|u us IH]; [reflexivity|]. cbn [map flat_map app] in *. now rewrite IH. }
    rewrite E1, E2. now constructor.
Qed.

(** ** Documents *)

Lemma fold_unfolds : forall l t, rfc_fold l t -> ~ In CR l -> ~ In LF l -> forall rest u, no_blank_start rest -> unfolds rest u ->
  unfolds (t ++ rest) (l ++ CR :: LF :: u).
Proof.
  intros l t F. induction F as [|c l t F IH|b l t B F IH]; intros N1 N2 rest u NB R; cbn [app].
  - constructor; [|constructor; [|exact R]].
    + intros (c & r & X & [E|E]); [|discriminate E]. injection E as ->. apply (NB c r eq_refl). destruct X as [-> | ->]; cbn; tauto.
    + intros (c & r & X & [E|E]); [discriminate E|]. injection E as ->. apply (NB c r eq_refl). destruct X as [-> | ->]; cbn; tauto.
  - cbn [In] in N1, N2. constructor; [|apply IH; tauto]. intros (d & r & X & [E|E]); injection E as -> _; [apply N1|apply N2]; now left.
  - apply un_crlf; [|now apply IH]. destruct B as [<-|[<-|[]]]; [now right|now left].
Qed.
Lemma document_unfolds : forall ls ts, Forall2 rfc_fold ls ts -> Forall solid ls -> Forall (fun l => ~ In LF l) ls -> unfold (concat ts) = ended ls.
Proof.
  intros ls ts F S L. apply unfold_eq. induction F as [|l t ls ts H F IH]; [constructor|]. inversion S as [|? ? [S1 _] S2]; subst. inversion L as [|? ? L1 L2]; subst.
  pose proof (stream_start _ _ F S2) as NB. cbn [concat]. rewrite <- (app_nil_r (ended _)), ended_cons, app_nil_r. apply fold_unfolds; try assumption. now apply IH.
Qed.
Lemma component_no_lf : forall t ls, rfc_component t ls -> Forall (fun l => ~ In LF l) ls.
Proof.
  assert (X : forall r l, rfc_line r l -> ~ In LF l).
  { intros r l R I. apply line_chars in R. rewrite Forall_forall in R. apply R in I. apply I. unfold control, LF. lia. }
  induction t as [k rs cs IH] using rtree_deep. intros ls C. inversion C as [? ? ps ? lss K P S]; subst. clear C.
  constructor; [eapply X, RfcProofs.begin_line, K|]. apply Forall_app. split; [|apply Forall_app; split].
  - clear - P X. induction P as [|r l rs ps [_ H] _ IH]; constructor; [now apply X in H|exact IH].
  - clear - IH S. induction S as [|c ls cs lss H _ IHS]; [constructor|]. inversion IH; subst. cbn [concat]. apply Forall_app. auto.
  - constructor; [|constructor]. eapply X, RfcProofs.end_line, K.
Qed.
Lemma document_text : forall t s, rfc_document t s -> exists ls ts, rfc_component t ls /\ Forall2 rfc_fold ls ts /\ s = concat ts /\ unfold s = ended ls.
Proof.
  intros t s (ls & ts & C & F & ->). exists ls, ts. split; [exact C|]. split; [exact F|]. split; [reflexivity|].
  apply document_unfolds; [exact F|now apply component_solid in C|now apply component_no_lf in C].
Qed.
Lemma begin_no_breaks : forall t ls rest j, rfc_component t ls -> after_breaks (ended ls ++ rest) j -> j = ended ls ++ rest.
Proof.
  intros t ls rest j C A. apply no_breaks_self; [|exact A]. destruct (component_first _ _ C) as (k & r & K & ->). apply no_break_spec, solid_next. now apply token_solid_lines.
Qed.
Lemma no_break_next_nil : no_break_next [].
Proof. split; intros [q E]; discriminate E. Qed.
Lemma said_kept : forall {U : Unicode} t s c, rfc_document t s -> text_reads (unfold s) c [] -> component_said t c -> document_kept t s.
Proof.
  intros U t s c D (j & A & R) S. destruct (document_text t s D) as (ls & ts & C & F & -> & E). rewrite E in A. rewrite <- (app_nil_r (ended ls)) in A.
  apply (begin_no_breaks t) in A; [|exact C]. subst j. apply (component_exact t ls C c [] []) in R as [K _]; [|exact no_break_next_nil|exact S]. now exists ls, ts.
Qed.
Lemma kept_read : forall {U : Unicode} t s, document_kept t s -> exists w, component_said t (wtree_read w)
  /\ read_components (unfold s) = Ok [wtree_read w] /\ read_calendar_simple (unfold s) = Ok [wtree_read w] /\ read_component (unfold s) = Ok (wtree_read w)
  /\ (pc_name (wtree_read w) = lit "VCALENDAR" -> read_calendar (unfold s) = Ok (mk_pcal (pc_props (wtree_read w)) (pc_comps (wtree_read w)))).
Proof.
  intros U t s (ls & ts & K & F & ->). pose proof (kept_rfc _ _ K) as C. rewrite (document_unfolds _ _ F (component_solid _ _ C) (component_no_lf _ _ C)).
  destruct (component_form t ls K) as (w & O & T & S). exists w. split; [exact S|]. apply (document_read CrLf w (ended ls) [] O T bk_nil). discriminate.
Qed.
Lemma document_exact : forall {U : Unicode} t s, rfc_document t s ->
  ((exists c, read_components (unfold s) = Ok [c] /\ component_said t c) <-> document_kept t s)
  /\ ((exists c, read_component (unfold s) = Ok c /\ component_said t c) <-> document_kept t s).
Proof.
  intros U t s D. split; split.
  - intros (c & R & S). apply read_components_exact in R as [(c' & E & R)|[E _]]; [|discriminate E]. injection E as <-. eapply said_kept; eassumption.
  - intros K. destruct (kept_read t s K) as (w & S & R & _). now exists (wtree_read w).
  - intros (c & R & S). apply read_component_exact in R as (r & j & A & R). destruct (document_text t s D) as (ls & ts & C & F & -> & E).
    rewrite E in A. rewrite <- (app_nil_r (ended ls)) in A. apply (begin_no_breaks t) in A; [|exact C]. subst j.
    apply (component_exact t ls C c [] r) in R as [K _]; [|exact no_break_next_nil|exact S]. now exists ls, ts.
  - intros K. destruct (kept_read t s K) as (w & S & _ & _ & R & _). now exists (wtree_read w).
Qed.
Lemma said_name : forall t c, component_said t c -> pc_name c = match t with RNode k _ _ => k end.
Proof. intros t c H. now destruct H. Qed.
Lemma calendar_exact : forall {U : Unicode} rs cs s, rfc_document (RNode (lit "VCALENDAR") rs cs) s ->
  ((exists k, read_calendar (unfold s) = Ok k /\ Forall2 line_said rs (pcal_props k) /\ Forall2 component_said cs (pcal_comps k)) <-> document_kept (RNode (lit "VCALENDAR") rs cs) s).
Proof.
  intros U rs cs s D. split.
  - intros (k & R & S1 & S2). apply read_calendar_exact in R as [(ps & ds & R & ->)|[(c & (j & A & R) & NV & ->)|[(j & A & O) ->]]]; cbn [pcal_props pcal_comps] in S1, S2.
    + eapply said_kept; [exact D|exact R|]. now constructor.
    + exfalso. destruct (document_text _ s D) as (ls & ts & C & F & -> & E). rewrite E in A. rewrite <- (app_nil_r (ended ls)) in A.
      apply (begin_no_breaks (RNode (lit "VCALENDAR") rs cs)) in A; [|exact C]. subst j. clear E.
      inversion C as [? ? ps ? lss K P Q]; subst. apply comp_inv in R as (kb & n & x & j & ps' & cs' & E & -> & L & _ & _ & NO & NE).
      symmetry in E. rewrite ended_cons, <- app_assoc in E. apply (keyword_cut _ _ _ _ _ _ L) in E as [_ E].
      2: { apply (f_equal (@length BinNums.N)) in L. rewrite map_length in L. rewrite L. reflexivity. }
      assert (NC : ~ key_char CR) by (apply sep_no_key; cbn; tauto). apply NV. cbn [pc_name].
      destruct x as [|y x].
      * exfalso. rewrite app_nil_r in E. apply NC. unfold name_ok in NO. rewrite Forall_forall in NO. apply NO. rewrite E. apply in_or_app. right. now left.
      * apply (name_stop n _ y CR x _) in E as [E _]; [exact E|exact NO|now apply token_name|now apply (NE y x)|exact NC].
    + inversion S1; inversion S2; subst. destruct (document_text _ s D) as (ls & ts & C & F & -> & _). exists ls, ts. split; [|now split].
      inversion C as [? ? ps ? lss K P Q]; subst. inversion P; inversion Q; subst. constructor; [exact K|constructor|constructor].
  - intros K. destruct (kept_read _ s K) as (w & S & _ & _ & _ & R). rewrite R by (now rewrite (said_name _ _ S)). eexists. split; [reflexivity|]. cbn [pcal_props pcal_comps].
    inversion S; subst. now split.
Qed.
Lemma stream_nothing : forall {U : Unicode} a b s s', document_kept a s -> rfc_document b s' ->
  read_components (unfold (s ++ s')) = Ok [] /\ read_calendar (unfold (s ++ s')) = Ok (mk_pcal [] []).
Proof.
  intros U a b s s' (ls & ts & K & F & ->) (ms & us & D & G & ->). pose proof (kept_rfc _ _ K) as C.
  assert (E : unfold (concat ts ++ concat us) = ended ls ++ ended ms).
  { rewrite <- ended_app, <- (document_unfolds (ls ++ ms) (ts ++ us)).
    - now rewrite concat_app.
    - now apply Forall2_app.
    - apply Forall_app. split; eapply component_solid; eassumption.
    - apply Forall_app. split; eapply component_no_lf; eassumption. }
  rewrite E. destruct (component_form a ls K) as (w & O & T & S). destruct (component_first _ _ D) as (k & r & KK & ->).
  apply (trailing CrLf w (ended ls) [] _ O T bk_nil); [| |discriminate].
  - rewrite <- (app_nil_r (ended _)). apply no_break_spec, solid_next. now apply token_solid_lines.
  - rewrite <- (app_nil_r (ended _)), ended_cons. intros X. discriminate X.
Qed.
