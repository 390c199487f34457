(** Deciding the conditions of the round trip, for examples; more about single properties. *)
From Verif Require Import Str StrFacts Spec Fold UnfoldProofs FoldProofs Text TextProofs ValueTypes Property Chrono DateTime
  Component Alarm Calendar Nom Parser SpecBuild SpecDate SpecTree SpecDoc SpecConv SpecRound BuildProofs DateProofs ValueProofs
  TreeProofs ParserProofs DocProofs ConvProofs RoundProofs LfProofs.
From Coq Require Import ZifyBool ZifyNat ZifyN.

Section Checks.
  Context {U : Unicode}.
  Definition without (l v : str) : bool := forallb (fun c => negb (existsb (N.eqb c) l)) v.
  Lemma without_spec : forall l v, without l v = true -> forall c, In c l -> ~ In c v.
  Proof.
    intros l v H c L I. unfold without in H. rewrite forallb_forall in H. apply H in I. rewrite negb_true_iff in I.
    assert (existsb (N.eqb c) l = true); [|congruence]. apply existsb_exists. exists c. now rewrite N.eqb_refl.
  Qed.
  Definition param_okb (q : parameter) : bool := forallb is_key_char (fst q) && without [LF; DQ] (snd q).
  Lemma param_okb_spec : forall q, param_okb q = true -> param_ok q.
  Proof.
    intros q H. apply andb_true_iff in H as [H1 H2]. split; [now apply name_ok_spec|]. pose proof (without_spec _ _ H2) as W.
    split; [apply mark_free_no_lf, W; cbn; auto|]. left. apply W. cbn. auto.
  Qed.
  Fixpoint confusedb (v : str) : bool :=
    match v with
    | b :: r => (b =? BSL)%N && match r with d :: _ => existsb (N.eqb d) [COLON; 78%N; 110%N] | [] => false end || confusedb r
    | [] => false
    end.
  Lemma confusedb_spec : forall v, confusedb v = false -> ~ confused v.
  Proof.
    induction v as [|x v IH]; intros H (a & d & b & E & D).
    - destruct a; discriminate.
    - cbn [confusedb] in H. apply orb_false_iff in H as [H1 H2]. destruct a as [|y a].
      + injection E as -> ->. rewrite N.eqb_refl in H1. cbn [andb] in H1.
        assert (existsb (N.eqb d) [COLON; 78%N; 110%N] = true); [|congruence]. apply existsb_exists. exists d. now rewrite N.eqb_refl.
      + injection E as -> ->. apply IH; [easy|]. now exists a, d, b.
  Qed.
  Fixpoint nodupb (l : list str) : bool := match l with [] => true | x :: r => negb (existsb (str_eqb x) r) && nodupb r end.
  Lemma nodupb_spec : forall l, nodupb l = true -> NoDup l.
  Proof.
    induction l as [|x l IH]; intros H; constructor; cbn [nodupb] in H; apply andb_true_iff in H as [H1 H2]; [|now apply IH].
    intros I. rewrite negb_true_iff in H1. assert (existsb (str_eqb x) l = true); [|congruence].
    apply existsb_exists. exists x. now rewrite str_eqb_refl.
  Qed.
  Definition is_textb (p : property) : bool := match prop_value_type p with Some Text => true | _ => false end.
  Lemma is_textb_spec : forall p, is_textb p = true <-> is_text p.
  Proof. intros p. unfold is_textb, is_text. destruct (prop_value_type p) as [[]|]; split; easy. Qed.
  Definition prop_okb (p : property) : bool :=
    prop_name_okb (p_key p) && forallb param_okb (p_params p) && nodupb (map fst (p_params p))
    && (if is_textb p then negb (confusedb (p_val p)) else without [LF] (p_val p)).
  Lemma prop_okb_spec : forall p, prop_okb p = true -> prop_ok p.
  Proof.
    intros p H. unfold prop_okb in H. rewrite !andb_true_iff in H. destruct H as [[[H1 H2] H3] H4]. split; [split; [|split]|].
    - now apply prop_name_okb_spec.
    - apply Forall_forall. intros q I. rewrite forallb_forall in H2. now apply param_okb_spec, H2.
    - now apply nodupb_spec.
    - destruct (is_textb p) eqn:T.
      + split; [intros _; apply confusedb_spec; now destruct (confusedb (p_val p))|]. intros N. now apply is_textb_spec in T.
      + assert (N : ~ is_text p) by (intros N; apply is_textb_spec in N; congruence). split; [easy|]. intros _.
        pose proof (without_spec _ _ H4 LF (or_introl eq_refl)) as L. split; [|now apply mark_free_no_lf].
        intros (a & b & E). apply L. rewrite E. apply in_or_app. right. right. now left.
  Qed.
  Fixpoint inner_okb (i : inner) : bool :=
    match i with
    | mk_inner ps ms cs =>
        forallb (fun '(k, p) => negb (is_multi_name k) && prop_okb p) ps
        && forallb (fun '(k, l) => is_multi_name k && forallb prop_okb l) ms
        && forallb (fun '(k, c) => forallb is_key_char k && inner_okb c) cs
    end.
  Lemma map_get_in : forall V k (m : list (str * V)) v, map_get k m = Some v -> In (k, v) m.
  Proof.
    induction m as [|[j w] m IH]; intros v H; cbn [map_get] in H; [discriminate|].
    destruct (str_eqb k j) eqn:E; [apply str_eqb_eq in E; injection H as ->; left; now rewrite E|right; now apply IH].
  Qed.
  Lemma inner_okb_spec : forall i, inner_okb i = true -> inner_ok i.
  Proof.
    induction i as [ps ms cs IH] using inner_deep. intros H. cbn [inner_okb] in H. rewrite !andb_true_iff in H.
    destruct H as [[H1 H2] H3]. rewrite forallb_forall in H1, H2, H3. constructor; cbn [i_props i_multi i_comps].
    - intros k p G. apply map_get_in, H1 in G. apply andb_true_iff in G as [G1 G2]. split; [|now apply prop_okb_spec].
      apply multi_name_not. now destruct (is_multi_name k).
    - intros k l G. apply map_get_in, H2 in G. apply andb_true_iff in G as [G1 G2]. split; [now apply is_multi_name_spec|].
      rewrite forallb_forall in G2. apply Forall_forall. intros p I. now apply prop_okb_spec, G2.
    - apply Forall_forall. intros [k c] I. rewrite Forall_forall in IH. pose proof (H3 _ I) as J. cbn beta iota in J.
      apply andb_true_iff in J as [J1 J2]. split; [now apply name_ok_spec|]. now apply (IH _ I).
  Qed.
  Definition kind_okb (c : cal_component) : bool :=
    match c with COther (k, _) => forallb is_key_char k && negb (existsb (str_eqb k) [lit "VEVENT"; lit "VTODO"; lit "VVENUE"]) | _ => true end.
  Lemma kind_okb_spec : forall c, kind_okb c = true -> kind_ok c.
  Proof.
    intros [i|i|i|[k i]] H; try easy. unfold kind_okb in H. apply andb_true_iff in H as [H1 H2]. split; [now apply name_ok_spec|].
    intros I. rewrite negb_true_iff in H2. assert (existsb (str_eqb k) [lit "VEVENT"; lit "VTODO"; lit "VVENUE"] = true); [|congruence].
    apply existsb_exists. exists k. split; [easy|apply str_eqb_refl].
  Qed.
  Lemma cal_ok_check : forall c, forallb prop_okb (c_props c) = true ->
    forallb (fun x => kind_okb x && inner_okb (cc_inner x)) (c_comps c) = true ->
    Forall (fun x => made (cc_inner x)) (c_comps c) -> cal_ok c.
  Proof.
    intros c P F M. rewrite forallb_forall in P, F. rewrite Forall_forall in M. split; apply Forall_forall.
    - intros p I. now apply prop_okb_spec, P.
    - intros x I. pose proof (F _ I) as J. apply andb_true_iff in J as [J1 J2].
      split; [now apply kind_okb_spec|]. split; [now apply M|now apply inner_okb_spec].
  Qed.

  Definition breaklessb (p : property) : bool :=
    forallb (fun q => without [CR; LF] (snd q)) (p_params p) && without [CR] (p_val p) && (is_textb p || without [LF] (p_val p)).
  Lemma breaklessb_spec : forall p, breaklessb p = true -> breakless p.
  Proof.
    intros p H. unfold breaklessb in H. rewrite !andb_true_iff, orb_true_iff in H. destruct H as [[H1 H2] H3]. split; [|split].
    - apply Forall_forall. intros q I. rewrite forallb_forall in H1. pose proof (without_spec _ _ (H1 _ I)) as W.
      split; apply W; cbn; auto.
    - apply (without_spec _ _ H2). now left.
    - intros N. destruct H3 as [H3|H3]; [now apply is_textb_spec in H3|]. apply (without_spec _ _ H3). now left.
  Qed.
  Fixpoint inner_allb (Q : property -> bool) (i : inner) : bool :=
    match i with
    | mk_inner ps ms cs => forallb (fun '(k, p) => Q p) ps && forallb (fun '(k, l) => forallb Q l) ms
        && forallb (fun '(k, c) => inner_allb Q c) cs
    end.
  Lemma inner_allb_spec : forall (Q : property -> bool) (R : property -> Prop), (forall p, Q p = true -> R p) -> forall i, inner_allb Q i = true -> inner_all R i.
  Proof.
    intros Q R S. induction i as [ps ms cs IH] using inner_deep. intros H. cbn [inner_allb] in H. rewrite !andb_true_iff in H.
    destruct H as [[H1 H2] H3]. rewrite forallb_forall in H1, H2, H3. constructor; cbn [i_props i_multi i_comps].
    - intros k p G. apply map_get_in, H1 in G. auto.
    - intros k l G. apply map_get_in, H2 in G. rewrite forallb_forall in G. apply Forall_forall. auto.
    - apply Forall_forall. intros [k c] I. rewrite Forall_forall in IH. apply (IH _ I). exact (H3 _ I).
  Qed.
  Lemma cal_all_check : forall (Q : property -> bool) (R : property -> Prop) c, (forall p, Q p = true -> R p) -> forallb Q (c_props c) = true ->
    forallb (fun x => inner_allb Q (cc_inner x)) (c_comps c) = true -> cal_all R c.
  Proof.
    intros Q R c S P F. rewrite forallb_forall in P, F. split; apply Forall_forall; [auto|]. intros x I.
    eapply inner_allb_spec; [exact S|]. now apply F.
  Qed.
  Fixpoint has_stampsb (i : inner) : bool :=
    match i with
    | mk_inner ps _ cs => match map_get (lit "DTSTAMP") ps with Some _ => true | None => false end
        && match map_get (lit "UID") ps with Some _ => true | None => false end
        && forallb (fun '(k, c) => has_stampsb c) cs
    end.
  Lemma has_stampsb_spec : forall i, has_stampsb i = true -> has_stamps i.
  Proof.
    induction i as [ps ms cs IH] using inner_deep. intros H. cbn [has_stampsb] in H. rewrite !andb_true_iff in H. destruct H as [[H1 H2] H3].
    constructor; cbn [i_props i_comps].
    - intros E. now rewrite E in H1.
    - intros E. now rewrite E in H2.
    - rewrite forallb_forall in H3. apply Forall_forall. intros [k c] I. rewrite Forall_forall in IH. apply (IH _ I). exact (H3 _ I).
  Qed.

  (** ** Properties *)

  (** A TEXT property survives exactly if its value does. *)
  Lemma text_round : forall p s, head_ok p -> is_text p -> prop_write p = Ret s ->
    (property_from_str (unfold s) = Ok p <-> ~ confused (p_val p)).
  Proof.
    intros p s H T W. destruct (value_text_of p) as [V _]. specialize (V T).
    assert (N : ~ In LF (value_text p)) by (rewrite V; apply escape_no_lf).
    unfold property_from_str. rewrite (prop_round_head p s H); [|now apply mark_free_no_lf| |easy].
    - cbn [rmap]. unfold pline. split; intros E.
      + apply (f_equal (fun r => match r with Ok x => x | _ => p end)) in E. rewrite line_of_conv in E by apply H. apply (f_equal p_val) in E. cbn [p_val] in E. rewrite T in E.
        intros (a & d & b & C). apply unescape_escape in E. apply E. now exists a, d, b.
      + f_equal. apply line_of_back. split; [easy|]. split; [easy|]. now intros [].
    - intros (a & b & E). apply N. rewrite E. apply in_or_app. right. right. now left.
  Qed.

  (** A printed property is one line. *)
  Lemma printed_line : forall p s, ~ In LF (p_key p) -> Forall (fun q => ~ In LF (fst q) /\ ~ In LF (snd q)) (p_params p) ->
    (~ is_text p -> ~ In LF (p_val p)) -> prop_write p = Ret s ->
    unfold s = p_key p ++ params_text (p_params p) ++ COLON :: value_text p ++ [CR; LF]
    /\ ~ In LF (p_key p ++ params_text (p_params p) ++ COLON :: value_text p).
  Proof.
    intros p s K P V W. destruct (value_text_of p) as [T1 T2].
    assert (N : ~ In LF (prop_line p)).
    { unfold prop_line. rewrite !in_app_iff. intros [I|[I|[I|I]]]; try easy.
      - unfold params_text in I. apply in_concat in I as (l & I & J). apply in_map_iff in I as (q & <- & I).
        rewrite Forall_forall in P. destruct (P _ I) as [P1 P2]. destruct J as [J|J]; [easy|]. rewrite in_app_iff in J.
        destruct J as [J|[J|J]]; try easy. apply quote_in in J as [J|J]; easy.
      - destruct (is_text_dec p) as [T|T]; [rewrite T1 in I by easy; now apply escape_no_lf in I|]. rewrite T2 in I by easy. now apply V. }
    split; [|exact N]. unfold prop_write, write_folded in W. destruct (fold_line _) as [f| |] eqn:F; cbn [obind] in W; try easy.
    injection W as <-. change crlf with [CR; LF]. rewrite (unfold_fold_app _ _ _ F) by now apply mark_free_no_lf.
    change (unfold [CR; LF]) with [CR; LF]. unfold prop_line. now rewrite <- !app_assoc.
  Qed.

  (** ** Names *)

  Lemma ascii_name : forall k, plain_name k -> name_ok k /\ ascii k.
  Proof.
    intros k F. unfold name_ok, ascii. split; (eapply Forall_impl; [|exact F]); cbn beta; intros c H; [|lia].
    destruct (N.eq_dec c 45) as [->|N]; [left; cbn; auto 10|]. right. unfold is_alnum, is_digit, is_upper, is_lower_ascii, in_range.
    replace (c <? 128)%N with true by lia. lia.
  Qed.
  Lemma plain_total : forall k, plain_name k -> exists s, prop_write (mk_property k [] []) = Ret s.
  Proof.
    intros k F. apply ascii_name in F as [_ A]. unfold prop_write, write_folded.
    destruct (fold_total_either (prop_line (mk_property k [] []))) as [f E].
    - left. intros a r b E N. assert (r = []) as ->; [|cbn; lia].
      assert (A' : ascii (prop_line (mk_property k [] []))).
      { unfold prop_line, params_text. cbn [p_key p_params map concat app]. apply Forall_app. split; [easy|]. constructor; [reflexivity|].
        unfold value_text. cbn [p_val]. destruct (prop_value_type _) as [[]|]; constructor. }
      rewrite E in A'. apply Forall_app in A' as [_ A']. apply Forall_app in A' as [A' _]. destruct r as [|c r]; [easy|]. exfalso.
      inversion A'; subst. cbn [forallb] in N. apply andb_true_iff in N as [N _]. unfold non_ascii in N. lia.
    - rewrite E. cbn [obind]. eauto.
  Qed.
  Lemma reserved_name : forall w k v ps s, In w ["END"; "BEGIN"]%string -> name_ok k -> has_prefix (lit w) k ->
    prop_write (mk_property k v ps) = Ret s -> ~ In LF v -> Forall (fun q => ~ In LF (fst q) /\ ~ In LF (snd q)) ps ->
    exists x, property_from_str (unfold s) = Err x.
  Proof.
    intros w k v ps s Iw K [r E] W V P.
    assert (H : exists x, read_property (unfold s) = Err x).
    { apply property_read_error. exists []. cbn [app]. apply printed_line in W as [W _]; cbn [p_key p_params p_val] in *; try easy.
      - rewrite W, E. rewrite <- !app_assoc. eexists. split; [constructor|]. destruct Iw as [<-|[<-|[]]]; [left|right]; reflexivity.
      - apply name_no_special; [easy|]. cbn. auto 20. }
    destruct H as [x H]. exists x. unfold property_from_str. now rewrite H.
  Qed.

  (** ** Parsed calendars *)

  Lemma parsed_made : forall s d, calendar_from_str s = Ok d -> Forall (fun x => made (cc_inner x)) (c_comps d).
  Proof.
    intros s d H. unfold calendar_from_str in H. destruct (read_calendar _) as [c|e|]; cbn [rmap] in H; try easy. injection H as <-.
    unfold conv_cal. cbn [c_comps]. apply Forall_map, Forall_forall. intros c' _. rewrite (proj2 (conv_cc_kind c')). apply made_parsed.
  Qed.
  Lemma parsed_props : forall s d, calendar_from_str s = Ok d -> exists c, read_calendar (unfold s) = Ok c
    /\ Forall2 says (pcal_props c) (c_props d) /\ Forall2 (fun a x => cc_kind x = pc_name a /\ keeps a (cc_inner x)) (pcal_comps c) (c_comps d).
  Proof.
    intros s d H. unfold calendar_from_str in H. destruct (read_calendar _) as [c|e|]; cbn [rmap] in H; try easy. injection H as <-.
    exists c. split; [easy|]. unfold conv_cal. cbn [c_props c_comps]. split.
    - induction (pcal_props c) as [|p l IH]; constructor; [apply conv_prop_says|easy].
    - induction (pcal_comps c) as [|a l IH]; constructor; [|easy]. destruct (conv_cc_kind a) as [K I]. split; [easy|].
      rewrite I. apply conv_inner_keeps.
  Qed.
  (** What is read back satisfies the conditions again. *)
  Lemma cal_back_ok : forall e c s, clock_ok e -> cal_ok c -> cal_write e c = Ret s ->
    exists d, calendar_from_str s = Ok d /\ cal_ok d /\ Forall (fun x => has_stamps (cc_inner x)) (c_comps d)
      /\ c_props d = c_props c /\ Forall2 (cc_stamped e) (c_comps c) (c_comps d).
  Proof.
    intros e c s C O W. destruct (cal_round e c s C O W) as (d & E & P & F & _). exists d. split; [easy|].
    pose proof (parsed_made s d E) as M. destruct O as [O1 O2]. repeat apply conj; try easy.
    - now rewrite P.
    - clear - F O2 M. revert O2 M. induction F as [|x y cs cs' S F IH]; intros O M; [constructor|]. inversion O as [|? ? (K & _ & I) O2]; subst.
      inversion M; subst. constructor; [|now apply IH]. split; [now destruct S|]. split; [easy|].
      destruct S; cbn [cc_inner] in *; now apply (stamped_ok e i).
    - clear - F. induction F as [|x y cs cs' S F IH]; constructor; [|easy]. destruct S; cbn [cc_inner]; now apply (stamped_has e i).
  Qed.
  Theorem cal_twice : forall e c s, clock_ok e -> cal_ok c -> cal_write e c = Ret s ->
    exists d, calendar_from_str s = Ok d
      /\ forall e' s', clock_ok e' -> cal_write e' d = Ret s' ->
           calendar_from_str s' = Ok d /\ forall e'', clock_ok e'' -> cal_write e'' d = Ret s'.
  Proof.
    intros e c s C O W. destruct (cal_back_ok e c s C O W) as (d & E & Od & H & _). exists d. split; [easy|]. intros e' s' C' W'.
    split; [now apply (cal_fixed e')|]. intros e'' C''. now rewrite (cal_write_same e'' e').
  Qed.
End Checks.
