(** Reading a document and writing it again. *)
From Verif Require Import Str StrFacts Spec Fold UnfoldProofs FoldProofs Text TextProofs ValueTypes Property Chrono DateTime
  Component Alarm Calendar Nom Parser SpecBuild SpecDate SpecTree SpecDoc SpecConv SpecRound SpecExact BuildProofs DateProofs ValueProofs
  TreeProofs ParserProofs DocProofs ConvProofs RoundProofs LfProofs RoundChecks ExactProofs.
From Coq Require Import ZifyBool ZifyNat ZifyN.

Lemma decoded_not_confused : forall ps, Forall rfc_piece ps ->
  ~ (exists a d b, ps = a ++ Escaped BSL :: Plain d :: b /\ In d [COMMA; SEMI; COLON; 78%N; 110%N]) -> ~ confused (decoded ps).
Proof.
  intros ps F N (a & d & b & E & I). unfold decoded in E. apply map_eq_app in E as (l1 & l2 & -> & <- & E).
  destruct l2 as [|p1 l2]; [discriminate|]. destruct l2 as [|p2 l2]; [discriminate|]. cbn [map] in E. injection E as E1 E2 E3.
  apply Forall_app in F as [_ F]. inversion F as [|? ? F1 F']; subst. inversion F' as [|? ? F2 _]; subst.
  assert (p1 = Escaped BSL) as ->.
  { destruct p1 as [c|c]; cbn in E1; [now subst|]. cbn in F1.
    destruct F1 as [<-|[<-|[<-|[<-|[<-|[]]]]]]; try easy; discriminate E1. }
  destruct p2 as [c|c].
  - cbn in I. apply N. exists l1, c, l2. split; [easy|]. cbn. tauto.
  - cbn in F2. destruct F2 as [<-|[<-|[<-|[<-|[<-|[]]]]]]; cbn in I; intuition discriminate.
Qed.

Section Keep.
  Context {U : Unicode}.

  Lemma wline_keep : forall y l, wline_ok y l -> wline_tame l -> prop_ok (conv_prop (wline_read l)).
  Proof.
    intros y [k qs v|k] O T.
    - destruct O as (K & P & V). destruct T as (N & M & T1 & T2). cbn [wline_read].
      assert (L : length (filter (fun q => str_eqb (pp_key q) (lit "VALUE")) (map wparam_read qs)) <= 1).
      { assert (N2 : NoDup (map fst (map (fun q => (wp_key q, tt)) qs))) by now rewrite map_map.
        pose proof (nodup_filter _ (lit "VALUE") _ N2) as L. clear - L. induction qs as [|q qs IH]; [easy|].
        cbn [map filter wparam_read pp_key fst] in *. destruct (str_eqb _ _); cbn [length] in *; [|now apply IH].
        assert (A : length (filter (fun q => str_eqb (fst q) (lit "VALUE")) (map (fun q => (wp_key q, tt)) qs)) <= 1) by lia.
        apply IH in A. clear IH. enough (length (filter (fun q => str_eqb (pp_key q) (lit "VALUE")) (map wparam_read qs))
          = length (filter (fun q => str_eqb (fst q) (lit "VALUE")) (map (fun q => (wp_key q, tt)) qs))) by lia.
        clear. induction qs as [|q qs IH]; [easy|]. cbn [map filter wparam_read pp_key fst]. destruct (str_eqb _ _); cbn [length]; lia. }
      assert (X : forall w, prop_value_type (conv_prop (mk_pprop k w (map wparam_read qs))) = determin_value_type k (map wparam_read qs)).
      { intros w. now apply value_type_agree. }
      assert (E : p_params (conv_prop (mk_pprop k (decode_value k (map wparam_read qs) v) (map wparam_read qs))) = map conv_param (map wparam_read qs)).
      { unfold conv_prop. cbn [p_params pr_params]. rewrite hm_fold_fresh; [easy|]. cbn [app]. rewrite !map_map. exact N. }
      split; [split; [exact K|]|].
      + rewrite E. split.
        * apply Forall_map, Forall_map. clear - P M. induction P as [|[a f] qs [A F] P IH]; [constructor|]. inversion M; subst.
          constructor; [|now apply IH]. unfold conv_param, wparam_read. cbn [wp_key pp_key pp_val]. split; [exact A|]. cbn [fst snd].
          unfold wparam_value in *. cbn [wp_form] in *. destruct f as [| |w|w].
          -- split; [apply mark_free_nil|left; easy].
          -- split; [apply mark_free_nil|left; easy].
          -- split; [easy|right]. tauto.
          -- split; [easy|left]. tauto.
        * rewrite !map_map. exact N.
      + unfold val_ok, is_text. rewrite X. cbn [conv_prop p_val pr_val]. unfold decode_value. split.
        * intros T. rewrite T. destruct (T1 T) as (ps & -> & F & C).
          assert (unescape_text (wire ps) = decoded ps) as ->; [|now apply decoded_not_confused].
          apply unescape_wire; [easy|]. intros (a & d & b & E' & I). apply C. exists a, d, b. split; [easy|]. exact I.
        * intros T. assert (D : match determin_value_type k (map wparam_read qs) with Some Text => unescape_text v | _ => v end = v).
          { now destruct (determin_value_type k (map wparam_read qs)) as [[]|]. }
          rewrite D. split; [|now apply T2]. destruct y; [easy|]. intros (a & b & ->). apply V. apply in_or_app. right. right. now left.
    - destruct O as [K _]. cbn [wline_read]. split; [split; [exact K|split; constructor]|].
      split; [intros _ (a & d & b & E & _); now destruct a|]. intros _. split; [intros (a & b & E); now destruct a|]. apply mark_free_nil.
  Qed.

  Lemma wtree_deep : forall (P : wtree -> Prop),
    (forall n its, Forall (either (fun _ => True) P) its -> P (W n its)) -> forall t, P t.
  Proof.
    intros P H. fix F 1. intros [n its]. apply H. induction its as [|[l|t] its IH]; constructor; try exact IH; constructor; [exact I|apply F].
  Qed.

  Lemma conv_inner_ok : forall y t, wtree_ok y t -> wtree_tame t -> inner_ok (conv_inner (wtree_read t)).
  Proof.
    intros y. induction t as [n its IH] using wtree_deep. intros O T. inversion O as [? ? K F]; subst. inversion T as [? ? G]; subst.
    cbn [wtree_read].
    set (ps := flat_map (fun x => match x with inl l => [wline_read l] | inr _ => [] end) its).
    set (cs := flat_map (fun x => match x with inl _ => [] | inr t => [wtree_read t] end) its).
    assert (P : Forall (fun q => prop_ok (conv_prop q)) ps).
    { unfold ps. apply Forall_forall. intros q I. apply in_flat_map in I as ([l|t] & I & J); [|easy].
      destruct J as [<-|[]]. rewrite Forall_forall in F, G. apply F in I as F1. apply G in I as G1.
      inversion F1; inversion G1; subst. now apply (wline_keep y). }
    assert (C : Forall (fun c => name_ok (pc_name c) /\ inner_ok (conv_inner c)) cs).
    { unfold cs. apply Forall_forall. intros q I. apply in_flat_map in I as ([l|t] & I & J); [easy|].
      destruct J as [<-|[]]. rewrite Forall_forall in F, G, IH. apply F in I as F1. apply G in I as G1. apply IH in I as I1.
      inversion F1; inversion G1; inversion I1; subst. split; [|auto]. match goal with H : wtree_ok _ t |- _ => inversion H; subst end.
      easy. }
    constructor.
    - intros k p H. rewrite conv_inner_single in H. destruct (is_multi_name k) eqn:M; [discriminate|]. split; [now apply multi_name_not|].
      destruct (find _ (rev ps)) as [q|] eqn:E; [|discriminate]. injection H as <-. apply find_some in E as [E _]. apply in_rev in E.
      rewrite Forall_forall in P. now apply P.
    - intros k l H. rewrite conv_inner_multi in H. destruct (is_multi_name k) eqn:M; [|discriminate]. split; [now apply is_multi_name_spec|].
      assert (l = map conv_prop (filter (fun q => str_eqb (pr_name q) k) ps)) as ->.
      { destruct (map conv_prop _); [discriminate|now injection H]. }
      apply Forall_map, Forall_forall. intros q I. apply filter_In in I as [I _]. rewrite Forall_forall in P. now apply P.
    - rewrite conv_inner_comps. apply Forall_map. eapply Forall_impl; [|exact C]. easy.
  Qed.

  Lemma conv_cc_ok : forall y t, wtree_ok y t -> wtree_tame t -> kind_ok (conv_cc (wtree_read t)) /\ made (cc_inner (conv_cc (wtree_read t)))
    /\ inner_ok (cc_inner (conv_cc (wtree_read t))).
  Proof.
    intros y t O T. destruct (conv_cc_kind (wtree_read t)) as [_ C]. rewrite C. split; [|split; [apply made_parsed|now apply (conv_inner_ok y)]].
    unfold conv_cc. destruct (str_eqb _ (lit "VEVENT")) eqn:E1; [easy|]. destruct (str_eqb _ (lit "VTODO")) eqn:E2; [easy|].
    destruct (str_eqb _ (lit "VVENUE")) eqn:E3; [easy|]. apply str_eqb_neq in E1, E2, E3. split.
    - inversion O; subst. easy.
    - intros [I|[I|[I|[]]]]; congruence.
  Qed.

  Theorem kept : forall y n its s u b, wtree_ok y (W n its) -> wtree_text y (W n its) u -> breaks b -> (y = Lf -> ~ has_crlf u) ->
    n = lit "VCALENDAR" -> unfolds s (b ++ u) -> wtree_tame (W n its) ->
    exists d, calendar_from_str s = Ok d /\ cal_ok d.
  Proof.
    intros y n its s u b O T B C -> F M. apply unfold_eq in F.
    destruct (document_read y (W (lit "VCALENDAR") its) u b O T B C) as (_ & _ & _ & D). specialize (D eq_refl).
    unfold calendar_from_str. rewrite F, D. cbn [rmap]. eexists. split; [reflexivity|].
    cbn [wtree_read pc_props pc_comps]. unfold conv_cal. cbn [pcal_props pcal_comps].
    inversion O as [? ? _ F1]; subst. inversion M as [? ? G1]; subst. split; cbn [c_props c_comps]; apply Forall_map, Forall_forall.
    - intros q I. apply in_flat_map in I as ([l|t] & I & J); [|easy]. destruct J as [<-|[]]. rewrite Forall_forall in F1, G1.
      apply F1 in I as F2. apply G1 in I as G2. inversion F2; inversion G2; subst. now apply (wline_keep y).
    - intros q I. apply in_flat_map in I as ([l|t] & I & J); [easy|]. destruct J as [<-|[]]. rewrite Forall_forall in F1, G1.
      apply F1 in I as F2. apply G1 in I as G2. inversion F2; inversion G2; subst. now apply (conv_cc_ok y).
  Qed.
End Keep.
