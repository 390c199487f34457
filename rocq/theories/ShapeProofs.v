(** What is read from any text at all. *)
From Verif Require Import Str StrFacts Spec Fold Text TextProofs ValueTypes Property Chrono DateTime
  Component Alarm Calendar Nom Parser SpecBuild SpecDate SpecTree SpecDoc SpecConv SpecRound SpecItems SpecGrammar SpecShape BuildProofs DateProofs ValueProofs
  TreeProofs ParserProofs DocProofs ConvProofs RoundProofs LfProofs RoundChecks ItemProofs GrammarProofs FoldProofs UnfoldProofs.
From Coq Require Import ZifyBool ZifyNat ZifyN.

Section Shape.
  Context {U : Unicode}.

  Definition param_shaped (q : parameter) : Prop := name_ok (fst q) /\ (~ In DQ (snd q) \/ ~ In SEMI (snd q) /\ ~ In COLON (snd q)).
  Lemma param_read_shape : forall q s rest, param_read q s rest -> param_shaped (conv_param q).
  Proof.
    intros q s rest H. inversion H as [k o w t r B K V|k w r B K]; subst; unfold conv_param; cbn [pp_key pp_val].
    - split; [easy|]. cbn [snd]. inversion V; subst; [now left|now right|left; easy].
    - split; [easy|]. left. easy.
  Qed.
  Lemma params_read_shape : forall qs s rest, params_read qs s rest -> Forall param_shaped (map conv_param qs).
  Proof. intros qs s rest H. induction H; constructor; [eapply param_read_shape; eassumption|easy]. Qed.
  Lemma hm_insert_all : forall {V} (Q : str * V -> Prop) k v m, Q (k, v) -> Forall Q m -> (forall k' w, Q (k', w) -> str_eqb k k' = true -> Q (k', v)) ->
    Forall Q (hm_insert k v m).
  Proof.
    intros V Q k v m H F R. induction F as [|[k' w] m H' F IH]; cbn [hm_insert]; [now repeat constructor|].
    destruct (str_eqb k k') eqn:E; constructor; try easy. now apply (R k' w).
  Qed.
  Lemma hm_fold_shape : forall l m, Forall param_shaped l -> Forall param_shaped m ->
    Forall param_shaped (fold_left (fun m q => hm_insert (fst q) (snd q) m) l m).
  Proof.
    intros l. induction l as [|[k v] l IH]; intros m F G; [easy|]. inversion F as [|? ? H F']; subst. cbn [fold_left fst snd]. apply IH; [easy|].
    apply hm_insert_all; try easy. intros k' w [A _] _. split; [easy|]. apply H.
  Qed.
  Lemma conv_shape : forall q, (name_ok (Parser.pr_name q) /\ ~ has_prefix (lit "END") (Parser.pr_name q) /\ ~ has_prefix (lit "BEGIN") (Parser.pr_name q)) ->
    Forall param_shaped (map conv_param (pr_params q)) -> prop_shape (conv_prop q).
  Proof.
    intros q N F. split; [exact N|]. unfold conv_prop. cbn [p_params]. split; [now apply (hm_fold_shape _ [])|]. apply hm_fold_nodup. constructor.
  Qed.
  Lemma item_shape : forall i p r, prop_reads i p r -> prop_shape (conv_prop p).
  Proof.
    intros i p r (R & rest & _ & [(w & k & qs & t & v & -> & W & K & P & _ & ->)|(_ & k & -> & K & _ & ->)]); apply conv_shape; cbn [Parser.pr_name pr_params].
    - split; [easy|]. split; intros [x ->]; apply R; exists w, (x ++ t ++ COLON :: v ++ rest); split; try easy; rewrite <- !app_assoc; [now left|now right].
    - eapply params_read_shape, P.
    - split; [easy|]. split; intros [x ->]; apply R; exists [], (x ++ rest); (split; [constructor|]); rewrite <- !app_assoc; [now left|now right].
    - constructor.
  Qed.
  Inductive pshape : pcomp -> Prop :=
  | Pshape : forall n ps cs, name_ok n -> Forall (fun p => prop_shape (conv_prop p)) ps -> Forall pshape cs -> pshape (mk_pcomp n ps cs).
  Lemma reads_shape : (forall i c r, comp_reads i c r -> pshape c)
    /\ (forall n i ps cs r, body_reads n i ps cs r -> Forall (fun p => prop_shape (conv_prop p)) ps /\ Forall pshape cs)
    /\ (forall i, comp_stuck i -> True) /\ (forall i, body_stuck i -> True).
  Proof.
    apply reads_mutind; try (intros; exact I).
    - intros kb n i j ps cs r _ K _ _ _ [F G]. now constructor.
    - now split.
    - intros n i c j ps cs r _ H _ [F G]. split; [easy|now constructor].
    - intros n i p j ps cs r _ _ (x & H & _) _ _ [F G]. split; [constructor; [now apply item_shape in H|easy]|easy].
    - intros n i p j ps cs r _ _ (x & H & _) _ [F G]. split; [constructor; [now apply item_shape in H|easy]|easy].
  Qed.
  Lemma text_shape : forall i c r, text_reads i c r -> pshape c.
  Proof. intros i c r (j & _ & H). now apply reads_shape in H. Qed.

  Lemma inner_shaped : forall c, pshape c -> inner_shape (conv_inner c).
  Proof.
    induction c as [n ps cs IH] using pcomp_deep. intros H. inversion H as [? ? ? _ P C]; subst. constructor.
    - intros k p G. rewrite conv_inner_single in G. destruct (is_multi_name k) eqn:M; [discriminate|]. split; [now apply multi_name_not|].
      destruct (find _ (rev ps)) as [q|] eqn:E; [|discriminate]. injection G as <-. apply find_some in E as [E E2]. apply in_rev in E.
      rewrite Forall_forall in P. split; [|now apply P]. now apply str_eqb_eq in E2.
    - intros k l G. rewrite conv_inner_multi in G. destruct (is_multi_name k) eqn:M; [|discriminate]. split; [now apply is_multi_name_spec|].
      assert (L : l = map conv_prop (filter (fun q => str_eqb (Parser.pr_name q) k) ps) /\ l <> []).
      { destruct (map conv_prop _); [discriminate|]. now injection G as <-. }
      destruct L as [L N]. split; [easy|]. subst l. apply Forall_map, Forall_forall. intros q I. apply filter_In in I as [I E]. rewrite Forall_forall in P. split; [|now apply P].
      now apply str_eqb_eq in E.
    - rewrite conv_inner_comps. apply Forall_map. clear - IH C. induction IH as [|c cs H _ IH]; constructor; inversion C as [|? ? Q C']; subst; [|now apply IH].
      cbn [fst snd]. split; [now inversion Q|now apply H].
  Qed.
  Lemma comp_shaped : forall c, pshape c -> comp_shape (conv_cc c).
  Proof.
    intros c H. pose proof (inner_shaped c H) as S. destruct (conv_cc_kind c) as [_ C]. split; [|now rewrite C].
    unfold conv_cc. destruct (str_eqb _ (lit "VEVENT")) eqn:E1; [easy|]. destruct (str_eqb _ (lit "VTODO")) eqn:E2; [easy|].
    destruct (str_eqb _ (lit "VVENUE")) eqn:E3; [easy|]. apply str_eqb_neq in E1, E2, E3. split; [now inversion H|].
    intros [I|[I|[I|[]]]]; congruence.
  Qed.
  Theorem calendar_shape : forall s c, calendar_from_str s = Ok c -> cal_shape c.
  Proof.
    intros s c H. unfold calendar_from_str in H. destruct (read_calendar (unfold s)) as [k|?|] eqn:E; cbn [rmap] in H; try discriminate H. injection H as <-.
    apply (proj1 (read_calendar_exact _)) in E as [(ps & cs & R & ->)|[(d & R & _ & ->)|[_ ->]]].
    - apply text_shape in R. inversion R as [? ? ? _ P C]; subst. split; cbn [conv_cal c_props c_comps pcal_props pcal_comps]; apply Forall_map; [easy|].
      eapply Forall_impl; [|exact C]. intros x. apply comp_shaped.
    - apply text_shape in R. split; cbn [conv_cal c_props c_comps pcal_props pcal_comps map]; constructor; [now apply comp_shaped|constructor].
    - split; constructor.
  Qed.
  Theorem component_shape : forall s c, cc_from_str s = Ok c -> comp_shape c.
  Proof.
    intros s c H. unfold cc_from_str in H. destruct (read_component (unfold s)) as [k|?|] eqn:E; cbn [rmap] in H; try discriminate H. injection H as <-.
    apply read_component_exact in E as [r R]. now apply comp_shaped, (text_shape _ _ _ R).
  Qed.
  Theorem property_shape : forall s p, property_from_str s = Ok p -> prop_shape p.
  Proof.
    intros s p H. unfold property_from_str in H. destruct (read_property s) as [q|?|] eqn:E; cbn [rmap] in H; try discriminate H. injection H as <-.
    apply read_property_exact in E as (R & [(w & k & qs & t & v & rest & -> & W & K & P & _ & ->)|(_ & k & (rest & -> & K & _) & ->)]);
      apply conv_shape; cbn [Parser.pr_name pr_params].
    - split; [easy|]. split; intros [x ->]; apply R; exists w, (x ++ t ++ COLON :: v ++ rest); split; try easy; rewrite <- !app_assoc; [now left|now right].
    - eapply params_read_shape, P.
    - split; [easy|]. split; intros [x ->]; apply R; exists [], (x ++ rest); (split; [constructor|]); rewrite <- !app_assoc; [now left|now right].
    - constructor.
  Qed.

  (** With quiet properties, all conditions of the round trip hold. *)
  Lemma prop_shape_ok : forall p, prop_shape p -> prop_quiet p -> prop_ok p.
  Proof.
    intros p ((A & B & C) & F & D) (E1 & E2 & G & V). split; [|easy]. split; [now repeat split|]. split; [|easy].
    rewrite Forall_forall in *. intros q I. destruct (F q I) as [X Y], (G q I) as [Z W]. split; [easy|]. split; [easy|].
    destruct Y as [Y|[Y1 Y2]]; [now left|right]. now repeat split.
  Qed.
  Lemma inner_shape_ok : forall i, inner_shape i -> inner_all prop_quiet i -> inner_ok i.
  Proof.
    induction i as [ps ms cs IH] using inner_deep. intros H Q. inversion H as [? H1 H2 H3]; subst. inversion Q as [? Q1 Q2 Q3]; subst. constructor.
    - intros k p G. destruct (H1 k p G) as (M & _ & S). split; [easy|]. apply prop_shape_ok; [easy|now apply (Q1 k)].
    - intros k l G. destruct (H2 k l G) as (M & _ & S). split; [easy|]. specialize (Q2 k l G). rewrite Forall_forall in *. intros p I.
      apply prop_shape_ok; [now apply S|now apply Q2].
    - cbn [i_comps] in *. rewrite Forall_forall in *. intros o I. destruct (H3 o I) as [N S]. split; [easy|]. apply IH; try easy. now apply Q3.
  Qed.
  Theorem calendar_quiet_ok : forall s c, calendar_from_str s = Ok c -> cal_all prop_quiet c -> cal_ok c.
  Proof.
    intros s c H [Q1 Q2]. destruct (calendar_shape s c H) as [S1 S2]. pose proof (parsed_made s c H) as M. rewrite Forall_forall in *. split; rewrite Forall_forall.
    - intros p I. apply prop_shape_ok; [now apply S1|now apply Q1].
    - intros x I. destruct (S2 x I) as [K S]. split; [easy|]. split; [now apply M|]. apply inner_shape_ok; [easy|now apply Q2].
  Qed.

  (** ** Values and parameter values are parts of the text *)
  Section Parts.
    Variable Q : str -> Prop.
    Hypothesis Qp : forall a b c, Q (a ++ b ++ c) -> Q b.
    Lemma Qr : forall a b, Q (a ++ b) -> Q b.
    Proof. intros a b H. apply (Qp a b []). now rewrite app_nil_r. Qed.
    Lemma Ql : forall a b, Q (a ++ b) -> Q a.
    Proof. intros a b H. now apply (Qp [] a b). Qed.
    Definition ppart (q : pparam) : Prop := Q (pp_key q) /\ match pp_val q with Some w => Q w | None => True end.
    Definition part (p : pprop) : Prop :=
      Q (Parser.pr_name p) /\ (exists v, Q v /\ ~ has_crlf v /\ pr_val p = decode_value (Parser.pr_name p) (pr_params p) v) /\ Forall ppart (pr_params p).
    Inductive parts : pcomp -> Prop :=
    | Parts : forall n ps cs, Forall part ps -> Forall parts cs -> parts (mk_pcomp n ps cs).
    Lemma param_part : forall q s rest, param_read q s rest -> Q (s ++ rest) -> ppart q.
    Proof.
      intros q s rest H G. inversion H as [k o w t r B K V|k w r B K]; subst; unfold ppart; cbn [pp_key pp_val];
        (split; [cbn [app] in G; rewrite <- ?app_assoc in G; apply (Qr [SEMI]), Qr in G; now apply Ql in G|]); [|easy].
      inversion V as [v ? N D|v ? N S C E X|]; subst; [| |easy].
      - replace ((SEMI :: w ++ k ++ EQUALS :: DQ :: v ++ [DQ]) ++ rest) with ((SEMI :: w ++ k ++ [EQUALS; DQ]) ++ v ++ (DQ :: rest)) in G; [now apply Qp in G|].
        cbn [app]. rewrite <- !app_assoc. cbn [app]. now rewrite <- !app_assoc.
      - replace ((SEMI :: w ++ k ++ EQUALS :: t) ++ rest) with ((SEMI :: w ++ k ++ [EQUALS]) ++ t ++ rest) in G; [now apply Qp in G|].
        cbn [app]. rewrite <- !app_assoc. cbn [app]. reflexivity.
    Qed.
    Lemma params_part : forall qs s rest, params_read qs s rest -> Q (s ++ rest) -> Forall ppart qs.
    Proof.
      intros qs s rest H. induction H as [|q qs s t rest P _ IH]; intros G; [constructor|]. rewrite <- app_assoc in G. constructor; [now apply param_part in P|].
      apply IH. now apply Qr in G.
    Qed.
    Lemma cut_no_crlf : forall v rest, value_cut v rest -> ~ has_crlf v.
    Proof. intros v rest [[_ H]|[(_ & H & _)|[_ H]]]; [easy| |]; intros (a & b & ->); apply H, in_app_iff; right; right; now left. Qed.
    Lemma item_part : forall i p r, prop_reads i p r -> Q i -> part p /\ Q r.
    Proof.
      intros i p r (_ & rest & A & H) G.
      assert (T : Q rest -> Q r).
      { destruct A as [(b & _ & ->)|[_ ->]]; [apply Qr|easy]. }
      destruct H as [(w & k & qs & t & v & -> & _ & _ & P & V & ->)|(_ & k & -> & _ & _ & ->)].
      - pose proof (Qr _ _ G) as G1. apply Qr in G1. pose proof (Qr _ _ G1) as G2. apply (Qr [COLON]) in G2. split; [|apply T; now apply Qr in G2].
        split; cbn [pr_val Parser.pr_name pr_params]; [now apply Qr, Ql in G|]. split; [|now apply params_part in P]. exists v. split; [now apply Ql in G2|]. split; [now apply cut_no_crlf in V|easy].
      - split; [|apply T; now apply Qr in G]. split; [now apply Ql in G|]. split; [|constructor]. exists []. split; [apply (Qp k [] rest), G|]. split; [intros (a & b & E); now destruct a|].
        cbn [pr_val]. unfold decode_value. destruct determin_value_type as [[]|]; reflexivity.
    Qed.
    Lemma breaks_part : forall i r, after_breaks i r -> Q i -> Q r.
    Proof. intros i r (b & _ & -> & _) H. now apply Qr in H. Qed.
    Lemma reads_part : (forall i c r, comp_reads i c r -> Q i -> parts c /\ Q r)
      /\ (forall n i ps cs r, body_reads n i ps cs r -> Q i -> Forall part ps /\ Forall parts cs /\ Q r)
      /\ (forall i, comp_stuck i -> True) /\ (forall i, body_stuck i -> True).
    Proof.
      apply reads_mutind; try (intros; exact I).
      - intros kb n i j ps cs r _ K _ B _ IH G. apply Qr, Qr in G. destruct IH as (F & F' & R); [now apply breaks_part in B|]. split; [now constructor|easy].
      - intros n ke i r _ B G. apply Qr, Qr in G. split; [constructor|]. split; [constructor|]. now apply breaks_part in B.
      - intros n i c j ps cs r _ IH1 _ IH2 G. destruct (IH1 G) as [P Qj]. destruct (IH2 Qj) as (F & F' & R). split; [easy|]. split; [now constructor|easy].
      - intros n i p j ps cs r _ _ (x & H & B) _ _ IH G. destruct (item_part _ _ _ H G) as [P Qx]. destruct (IH (breaks_part _ _ B Qx)) as (F & F' & R).
        split; [now constructor|easy].
      - intros n i p j ps cs r _ _ (x & H & B) _ IH G. destruct (item_part _ _ _ H G) as [P Qx]. destruct (IH (breaks_part _ _ B Qx)) as (F & F' & R).
        split; [now constructor|easy].
    Qed.
    Lemma text_part : forall i c r, text_reads i c r -> Q i -> parts c.
    Proof. intros i c r (j & B & H) G. apply (proj1 reads_part _ _ _ H). now apply breaks_part in B. Qed.

    Definition fair (p : property) : Prop := Q (p_key p) /\ (exists ps v, Q v /\ ~ has_crlf v /\ p_val p = decode_value (p_key p) ps v)
      /\ Forall (fun q => Q (fst q) /\ (snd q = [] \/ Q (snd q))) (p_params p).
    Lemma fair_fold : forall l m, Forall (fun q : str * str => Q (fst q) /\ (snd q = [] \/ Q (snd q))) l -> Forall (fun q : str * str => Q (fst q) /\ (snd q = [] \/ Q (snd q))) m ->
      Forall (fun q => Q (fst q) /\ (snd q = [] \/ Q (snd q))) (fold_left (fun m q => hm_insert (fst q) (snd q) m) l m).
    Proof.
      intros l. induction l as [|[k v] l IH]; intros m F G; [easy|]. inversion F as [|? ? H F']; subst. cbn [fold_left fst snd]. apply IH; [easy|].
      apply hm_insert_all; try easy.
    Qed.
    Lemma part_fair : forall p, part p -> fair (conv_prop p).
    Proof.
      intros p (N & (v & A & B & C) & F). split; [easy|]. split; [exists (pr_params p), v; now repeat split|]. unfold conv_prop. cbn [p_params]. apply fair_fold; [|constructor].
      apply Forall_map. eapply Forall_impl; [|exact F]. intros q. unfold ppart, conv_param. cbn [fst snd]. intros [X Y]. split; [easy|]. destruct (pp_val q); [now right|now left].
    Qed.
    Lemma parts_inner : forall c, parts c -> inner_all fair (conv_inner c).
    Proof.
      induction c as [n ps cs IH] using pcomp_deep. intros H. inversion H as [? ? ? P C]; subst. constructor.
      - intros k p G. rewrite conv_inner_single in G. destruct (is_multi_name k) eqn:M; [discriminate|].
        destruct (find _ (rev ps)) as [q|] eqn:E; [|discriminate]. injection G as <-. apply find_some in E as [E _]. apply in_rev in E.
        rewrite Forall_forall in P. now apply part_fair, P.
      - intros k l G. rewrite conv_inner_multi in G. destruct (is_multi_name k) eqn:M; [|discriminate].
        assert (L : l = map conv_prop (filter (fun q => str_eqb (Parser.pr_name q) k) ps)).
        { destruct (map conv_prop _); [discriminate|]. now injection G as <-. }
        subst l. apply Forall_map, Forall_forall. intros q I. apply filter_In in I as [I _]. rewrite Forall_forall in P. now apply part_fair, P.
      - rewrite conv_inner_comps. apply Forall_map. clear - IH C. induction IH as [|c cs H _ IH]; constructor; inversion C as [|? ? Q' C']; subst; [|now apply IH].
        cbn [fst snd]. now apply H.
    Qed.
    Theorem calendar_parts : forall s c, calendar_from_str s = Ok c -> Q (unfold s) -> cal_all fair c.
    Proof.
      intros s c H G. unfold calendar_from_str in H. destruct (read_calendar (unfold s)) as [k|?|] eqn:E; cbn [rmap] in H; try discriminate H. injection H as <-.
      apply (proj1 (read_calendar_exact _)) in E as [(ps & cs & R & ->)|[(d & R & _ & ->)|[_ ->]]].
      - apply text_part in R; [|easy]. inversion R as [? ? ? P C]; subst. split; cbn [conv_cal c_props c_comps pcal_props pcal_comps]; apply Forall_map.
        + eapply Forall_impl; [|exact P]. intros x. apply part_fair.
        + eapply Forall_impl; [|exact C]. intros x X. rewrite (proj2 (conv_cc_kind x)). now apply parts_inner.
      - apply text_part in R; [|easy]. split; cbn [conv_cal c_props c_comps pcal_props pcal_comps map]; constructor; [|constructor].
        rewrite (proj2 (conv_cc_kind d)). now apply parts_inner.
      - split; constructor.
    Qed.
  End Parts.

  Lemma inner_all_and : forall (P R T : property -> Prop), (forall p, P p -> R p -> T p) -> forall i, inner_all P i -> inner_all R i -> inner_all T i.
  Proof.
    intros P R T X i. induction i as [ps ms cs IH] using inner_deep. intros H G. inversion H as [? H1 H2 H3]; subst. inversion G as [? G1 G2 G3]; subst. constructor.
    - intros k p E. now apply X; [apply (H1 k)|apply (G1 k)].
    - intros k l E. specialize (H2 k l E). specialize (G2 k l E). rewrite Forall_forall in *. intros p I. now apply X; [apply H2|apply G2].
    - cbn [i_comps] in *. rewrite Forall_forall in *. intros o I. now apply IH; [|apply H3|apply G3].
  Qed.
  Lemma cal_all_and : forall (P R T : property -> Prop), (forall p, P p -> R p -> T p) -> forall c, cal_all P c -> cal_all R c -> cal_all T c.
  Proof.
    intros P R T X c [H1 H2] [G1 G2]. rewrite Forall_forall in *. split; apply Forall_forall.
    - intros p I. now apply X; [apply H1|apply G1].
    - intros x I. eapply inner_all_and; [exact X|now apply H2|now apply G2].
  Qed.
  Lemma unfolds_in : forall s u, unfolds s u -> forall c, In c u -> In c s.
  Proof. intros s u H. induction H; intros d I; try easy; cbn [In] in *; intuition. Qed.
  (** Texts without backslashes and double quotes. *)
  Theorem calendar_plain_quiet : forall s u c, unfolds s u -> ~ In BSL s -> ~ In DQ s -> mark_free u -> calendar_from_str s = Ok c ->
    cal_all (fun p => map lower_ascii (p_key p) <> lit "end" /\ map lower_ascii (p_key p) <> lit "begin") c -> cal_all prop_quiet c.
  Proof.
    intros s u c F B D M H N. set (Q := fun v => ~ In BSL v /\ ~ In DQ v /\ mark_free v).
    assert (Qu : Q (unfold s)).
    { rewrite (unfold_eq _ _ F). split; [|split; [|easy]]; intros I; apply (unfolds_in _ _ F) in I; easy. }
    assert (Qp : forall a b c, Q (a ++ b ++ c) -> Q b).
    { intros a b d (X & Y & Z). rewrite !in_app_iff in X, Y. split; [tauto|]. split; [tauto|]. now apply mark_free_app_r, mark_free_app_l in Z. }
    pose proof (calendar_parts Q Qp s c H Qu) as G. revert N G. apply cal_all_and. clear. intros p [N1 N2] (_ & (ps & v & (B & D & M) & C & E) & P).
    split; [easy|]. split; [easy|]. assert (V : p_val p = v).
    { rewrite E. unfold decode_value. destruct determin_value_type as [[]|]; try reflexivity. now apply unescape_no_bsl. }
    split.
    - eapply Forall_impl; [|exact P]. intros [k w]; cbn [snd]; intros [_ [->|(_ & X & Y)]]; split; try easy.
      + intros [r R]. discriminate R.
      + apply mark_free_nil.
      + intros [r R]. apply X. rewrite R. now left.
    - split; rewrite V; intros _; [|easy]. intros (a & d & b & -> & _). apply B, in_app_iff. right. now left.
  Qed.
  Definition prop_quietb (p : property) : bool :=
    negb (str_eqb (map lower_ascii (p_key p)) (lit "end")) && negb (str_eqb (map lower_ascii (p_key p)) (lit "begin"))
    && forallb (fun q => match snd q with c :: _ => negb (c =? DQ)%N | [] => true end && without [LF] (snd q)) (p_params p)
    && (if is_textb p then negb (confusedb (p_val p)) else without [LF] (p_val p)).
  Lemma prop_quietb_spec : forall p, prop_quietb p = true -> prop_quiet p.
  Proof.
    intros p H. unfold prop_quietb in H. rewrite !andb_true_iff, !negb_true_iff in H. destruct H as [[[H1 H2] H3] H4].
    apply str_eqb_neq in H1, H2. split; [easy|]. split; [easy|]. split.
    - rewrite forallb_forall in H3. apply Forall_forall. intros [k w] I. specialize (H3 _ I). cbn [snd] in *. rewrite andb_true_iff in H3. destruct H3 as [A B]. split.
      + intros [r R]. rewrite R in A. discriminate A.
      + apply mark_free_no_lf, (without_spec _ _ B). now left.
    - destruct (is_textb p) eqn:T.
      + split; [intros _; apply confusedb_spec; now destruct (confusedb (p_val p))|]. intros N. now apply is_textb_spec in T.
      + assert (N : ~ is_text p) by (intros N; apply is_textb_spec in N; congruence). split; [easy|]. intros _.
        pose proof (without_spec _ _ H4 LF (or_introl eq_refl)) as L. split; [|now apply mark_free_no_lf].
        intros (a & b & E). apply L. rewrite E. apply in_or_app. right. right. now left.
  Qed.
  Fixpoint unmarkedb (s : str) : bool :=
    match s with
    | [] => true
    | c :: r => negb ((c =? LF)%N && match r with d :: _ => (d =? SP)%N || (d =? TAB)%N | [] => false end) && unmarkedb r
    end.
  Lemma unmarkedb_spec : forall s, unmarkedb s = true -> mark_free s.
  Proof.
    induction s as [|c s IH]; intros H; [apply mark_free_nil|]. cbn [unmarkedb] in H. apply andb_true_iff in H as [H1 H2]. specialize (IH H2).
    intros a b E (d & r & B & X). destruct a as [|x a].
    - cbn [app] in E. subst b. destruct X as [X|X]; injection X as -> ->.
      + apply (IH [] _ eq_refl). exists d, r. split; [easy|now right].
      + destruct B as [-> | ->]; discriminate H1.
    - injection E as -> ->. apply (IH a b eq_refl). now exists d, r.
  Qed.
End Shape.
