(** LF documents; single properties; zero-copy documents. *)
From Verif Require Import Str StrFacts Spec Fold UnfoldProofs FoldProofs Text TextProofs ValueTypes Property Chrono DateTime
  Component Alarm Calendar Nom Parser SpecBuild SpecDate SpecTree SpecDoc SpecConv SpecRound BuildProofs DateProofs ValueProofs
  TreeProofs ParserProofs DocProofs ConvProofs RoundProofs.
From Coq Require Import ZifyBool ZifyNat ZifyN.

(** ** CR LF to LF *)

Lemma has_prefix_crlf : forall s, has_prefix [CR; LF] s \/ ~ has_prefix [CR; LF] s.
Proof.
  intros s. destruct (starts_with [CR; LF] s) eqn:E.
  - left. now apply starts_with_spec in E.
  - right. intros H. apply starts_with_spec in H. congruence.
Qed.
Lemma to_lf_fun : forall s t u, to_lf s t -> to_lf s u -> t = u.
Proof.
  intros s t u H. revert u. induction H as [|r t H IH|c r t N H IH]; intros u K; inversion K; subst; try easy.
  - f_equal. now apply IH.
  - exfalso. match goal with H : ~ has_prefix _ _ |- _ => apply H end. now exists r.
  - exfalso. apply N. now exists r0.
  - f_equal. now apply IH.
Qed.
(** Texts in which every CR stands before an LF. *)
Inductive crs_ok : str -> Prop :=
| cr_nil : crs_ok []
| cr_crlf : forall r, crs_ok r -> crs_ok (CR :: LF :: r)
| cr_keep : forall c r, c <> CR -> crs_ok r -> crs_ok (c :: r).
Lemma crs_app : forall a b, crs_ok a -> crs_ok b -> crs_ok (a ++ b).
Proof. intros a b A B. induction A; cbn [app]; try constructor; easy. Qed.
Lemma crs_no_cr : forall s, ~ In CR s -> crs_ok s.
Proof. induction s as [|c s IH]; intros H; constructor; [|apply IH]; intros E; apply H; [now left|now right]. Qed.
Lemma to_lf_app : forall a a' b b', crs_ok a -> to_lf a a' -> to_lf b b' -> to_lf (a ++ b) (a' ++ b').
Proof.
  intros a a' b b' A H B. revert A. induction H as [|r t H IH|c r t N H IH]; intros A; [easy| |].
  - cbn [app]. constructor. apply IH. now inversion A; subst.
  - cbn [app]. constructor.
    + intros [x E]. inversion A; subst.
      * apply N. now exists r0.
      * injection E as -> _. easy.
    + apply IH. inversion A; subst; [|easy]. now constructor.
Qed.
Lemma to_lf_no_cr : forall s, ~ In CR s -> to_lf s s.
Proof.
  induction s as [|c s IH]; intros H; constructor.
  - intros [x E]. injection E as -> _. apply H. now left.
  - apply IH. intros I. apply H. now right.
Qed.
Lemma to_lf_crlf : to_lf [CR; LF] [LF].
Proof. constructor. constructor. Qed.
Lemma to_lf_concat : forall ss ts, Forall crs_ok ss -> Forall2 to_lf ss ts -> to_lf (concat ss) (concat ts).
Proof.
  intros ss ts C F. revert C. induction F; intros C; [constructor|]. inversion C; subst. cbn [concat]. now apply to_lf_app; auto.
Qed.

Lemma to_lf_unfold : forall s u, unfolds s u -> forall t, crs_ok s -> to_lf s t -> exists v, to_lf u v /\ unfolds t v.
Proof.
  induction 1 as [|c r u B H IH|c r u B H IH|c r u N H IH]; intros t C L.
  - inversion L; subst. exists []. split; constructor.
  - inversion L as [|? t' L'|? ? ? N]; subst; [|exfalso; apply N; now exists (c :: r)].
    inversion C as [|? C'|]; subst; [|easy].
    assert (Hc : c <> CR) by (destruct B; subst; discriminate).
    inversion L' as [| |? ? t2 N L2]; subst; [easy|].
    inversion C' as [| |? ? _ C2]; subst; [easy|].
    destruct (IH t2 C2 L2) as (v & V1 & V2). exists v. split; [easy|]. now apply un_lf.
  - inversion L as [| |? ? t1 N L1]; subst. inversion C as [| |? ? _ C1]; subst.
    assert (Hc : c <> CR) by (destruct B; subst; discriminate).
    inversion L1 as [| |? ? t2 N2 L2]; subst; [easy|]. inversion C1 as [| |? ? _ C2]; subst; [easy|].
    destruct (IH t2 C2 L2) as (v & V1 & V2). exists v. split; [easy|]. now apply un_lf.
  - inversion L as [|r' t' L'|? ? t1 N1 L1]; subst.
    + inversion C as [|? C'|]; subst; [|easy].
      assert (M : ~ fold_mark (LF :: r')).
      { intros (d & q & B & [E|E]); [discriminate|]. injection E as ->. apply N. exists d, q. auto. }
      inversion H as [| |? ? ? B|? ? u' _ H']; subst.
      { exfalso. apply M. eexists _, _. split; [exact B|]. now right. }
      destruct (IH (LF :: t')) as (v & V1 & V2).
      * now constructor.
      * constructor; [|easy]. intros [x E]. discriminate E.
      * inversion V1 as [| |? ? v' N2 V1']; subst. exists (LF :: v'). split; [now constructor|easy].
    + assert (Hc : c <> CR). { intros ->. inversion C; subst; try easy. apply N1. now exists r0. }
      inversion C as [| |? ? _ C1]; subst; [easy|].
      destruct (IH t1 C1 L1) as (v & V1 & V2). exists (c :: v). split.
      * constructor; [|easy]. intros [x E]. injection E as -> _. easy.
      * constructor; [|easy]. intros (d & q & B & [E|E]); [injection E as -> _; easy|]. injection E as -> ->.
        apply N. inversion L1 as [| |? ? ? ? ?]; subst.
        -- exfalso. destruct B; discriminate.
        -- exists d, r0. auto.
Qed.
Lemma to_lf_unfold_eq : forall s t, crs_ok s -> to_lf s t -> to_lf (unfold s) (unfold t).
Proof.
  intros s t C L. destruct (to_lf_unfold s (unfold s) (unfold_unfolds s) t C L) as (v & V1 & V2). now rewrite (unfold_eq _ _ V2).
Qed.

Section Lf.
  Context {U : Unicode}.

  Lemma escape_no_cr : forall t, ~ In CR t -> ~ In CR (escape_text t).
  Proof.
    intros t H I. rewrite escape_wire in I. unfold wire in I. apply in_flat_map in I as (p & I & J).
    apply in_map_iff in I as (c & <- & I). unfold esc_piece in J.
    destruct (c =? LF)%N; [cbn in J; intuition discriminate|]. destruct ((c =? BSL) || (c =? COMMA) || (c =? SEMI))%N eqn:E; cbn in J.
    - destruct J as [J|[J|J]]; [discriminate| |easy]. subst. easy.
    - destruct J as [J|J]; [subst; easy|easy].
  Qed.
  Lemma name_no_cr : forall k, name_ok k -> ~ In CR k.
  Proof. intros k K. apply name_no_special; [easy|]. cbn. auto 20. Qed.
  Lemma quote_in : forall c v, In c (quote_if_contains_colon v) -> c = DQ \/ In c v.
  Proof.
    intros c v. unfold quote_if_contains_colon. destruct (existsb _ v); [|auto]. cbn [In]. rewrite in_app_iff. cbn [In]. intuition.
  Qed.
  Lemma line_in : forall c p, head_ok p -> In c (prop_line p) ->
    In c [SEMI; COLON; EQUALS; DQ] \/ key_char c \/ (exists q, In q (p_params p) /\ In c (snd q)) \/ In c (value_text p).
  Proof.
    intros c p ((K & _) & P & _) I. unfold prop_line in I. rewrite !in_app_iff in I. cbn [In].
    destruct I as [I|[I|[I|I]]]; auto.
    - right. left. unfold name_ok in K. rewrite Forall_forall in K. auto.
    - unfold params_text in I. apply in_concat in I as (l & I & J). apply in_map_iff in I as (q & <- & I). destruct J as [J|J]; [auto|].
      rewrite in_app_iff in J. destruct J as [J|[J|J]]; auto.
      + right. left. rewrite Forall_forall in P. destruct (P _ I) as [Q _]. unfold name_ok in Q. rewrite Forall_forall in Q. auto.
      + apply quote_in in J as [J|J]; [subst c; auto 10|]. right. right. left. now exists q.
  Qed.
  Lemma key_no_cr_lf : ~ key_char CR /\ ~ key_char LF.
  Proof. split; intros H; apply is_key_char_spec in H; discriminate H. Qed.
  Lemma value_no_lf : forall p, breakless p -> ~ In LF (value_text p) /\ ~ In CR (value_text p).
  Proof.
    intros p (_ & C & L). destruct (value_text_of p) as [T1 T2]. destruct (is_text_dec p) as [T|T].
    - rewrite T1 by easy. split; [apply escape_no_lf|now apply escape_no_cr].
    - rewrite T2 by easy. split; [now apply L|easy].
  Qed.
  Lemma line_no_cr : forall p, head_ok p -> breakless p -> ~ In CR (prop_line p) /\ ~ In LF (prop_line p).
  Proof.
    intros p H B. pose proof (value_no_lf p B) as [V1 V2]. destruct B as (P & _). rewrite Forall_forall in P. destruct key_no_cr_lf as [K1 K2].
    split; intros I; apply line_in in I as [I|[I|[(q & I & J)|I]]]; try easy;
      try (cbn [In] in I; repeat (destruct I as [I|I]; [discriminate I|]); exact I); now apply P in I.
  Qed.

  (** ** Trees *)

  Inductive tree_all (Q : property -> Prop) : tree -> Prop :=
  | Tree_all : forall k ps cs, Forall Q ps -> Forall (tree_all Q) cs -> tree_all Q (Node k ps cs).
  Lemma stamp_tree_all : forall Q e i k n, well_made i -> inner_all Q i ->
    (forall d, Q (utc_prop "DTSTAMP" d)) -> (forall u, Q (text_prop "UID" (fmt_uuid u))) -> tree_all Q (fst (stamp_tree e k i n)).
  Proof.
    intros Q e i k n W A Q1 Q2. revert k n W A. induction i as [ps ms cs IH] using inner_deep. intros k n W A.
    rewrite stamp_tree_eq. cbn zeta. cbn [fst]. inversion W as [? [B1 B2 B3 B4] D]; subst. inversion A as [? A1 A2 A3]; subst.
    cbn [i_props i_multi i_comps] in *. constructor.
    - repeat (apply Forall_app; split).
      + unfold stamp_of. destruct (map_get _ ps); [constructor|]. constructor; [apply Q1|constructor].
      + apply Forall_map, Forall_forall. intros [k1 p] I. apply (ksorted_get _ _ _ _ B1), A1 in I. apply I.
      + unfold uid_of. destruct (map_get _ ps); [constructor|]. constructor; [apply Q2|constructor].
      + apply Forall_concat, Forall_map, Forall_forall. intros [k1 p] I. apply (ksorted_get _ _ _ _ B3), A2 in I. apply I.
    - generalize (snd (uid_of e ps (snd (stamp_of e ps n)))). intros m. clear - IH D A3. revert m.
      induction IH as [|[k c] cs H _ IH]; intros m; [constructor|]. inversion D; inversion A3; subst. cbn [fst snd] in *.
      constructor; [now apply H|now apply IH].
  Qed.
  Lemma cal_tree_all : forall Q e c, Forall (fun x => made (cc_inner x)) (c_comps c) -> cal_all Q c ->
    (forall d, Q (utc_prop "DTSTAMP" d)) -> (forall u, Q (text_prop "UID" (fmt_uuid u))) -> tree_all Q (cal_tree e c).
  Proof.
    intros Q e c M [P F] Q1 Q2. constructor; [easy|]. generalize 0. revert M.
    induction F as [|x l H _ IH]; intros M n; [constructor|]. inversion M; subst. cbn [kinds map stamp_trees fst snd].
    constructor; [|now apply IH]. apply stamp_tree_all; try easy. now apply made_well.
  Qed.
  Lemma stamp_breakless : forall d, breakless (utc_prop "DTSTAMP" d).
  Proof.
    intros d. split; [constructor|]. change (p_val (utc_prop "DTSTAMP" d)) with (format_utc_date_time d). split.
    - destruct d as [d t]. unfold format_utc_date_time, format_naive_date_time, fmt_date, fmt_time, fmt_year. cbn [date_of time_of].
      assert (P : forall w n, ~ In CR (pad w n)).
      { intros w n I. pose proof (pad_digits w n) as D. rewrite forallb_forall in D. now apply D in I. }
      rewrite !in_app_iff. intros I.
      repeat match goal with
      | H : _ \/ _ |- _ => destruct H as [H|H]
      | H : In CR (pad _ _) |- _ => now apply P in H
      end; try (now vm_compute in I; intuition discriminate).
      destruct ((0 <=? year d) && (year d <=? 9999))%Z; [now apply P in I|]. destruct I as [I|I]; [|now apply P in I].
      now destruct (year d <? 0)%Z.
    - intros _. apply stamp_no_lf.
  Qed.
  Lemma uid_breakless : forall u, breakless (text_prop "UID" (fmt_uuid u)).
  Proof.
    intros u. split; [constructor|]. cbn [text_prop p_val]. destruct (uuid_spec u) as [_ F]. rewrite Forall_forall in F. split.
    - intros I. apply F in I. vm_compute in I. intuition.
    - intros T. destruct T. reflexivity.
  Qed.

  Lemma fold_crs : forall l s, fold_line l = Ret s -> ~ In CR l -> crs_ok s.
  Proof.
    intros l s F N. apply fold_line_shape in F as (ps & last & -> & -> & _). induction ps as [|p ps IH]; cbn [join_fold].
    - now apply crs_no_cr.
    - cbn [concat] in N. rewrite !in_app_iff in N. apply crs_app; [apply crs_no_cr; tauto|].
      cbn [app]. constructor. constructor; [discriminate|]. apply IH. rewrite in_app_iff. tauto.
  Qed.
  Lemma tree_crs : forall t, tree_good t -> tree_all breakless t -> forall s, text_of t s -> crs_ok s.
  Proof.
    assert (L : crs_ok [CR; LF]) by (constructor; constructor).
    assert (W : forall w, ~ In CR (lit w) -> crs_ok (lit w)) by (intros; now apply crs_no_cr).
    induction t as [k ps cs IH] using tree_deep. intros G A s T. inversion G as [? ? ? K P C]; subst. inversion A as [? ? ? A1 A2]; subst.
    inversion T as [? ? ts ? ss F1 F2]; subst.
    assert (N : crs_ok k) by now apply crs_no_cr, name_no_cr.
    apply crs_app; [apply W; vm_compute; intuition discriminate|]. apply crs_app; [easy|]. apply crs_app; [easy|].
    apply crs_app; [|apply crs_app; [|apply crs_app; [apply W; vm_compute; intuition discriminate|now apply crs_app]]].
    - clear - F1 P A1 L. revert P A1. induction F1 as [|p t ps ts H F IH]; intros P A1; [constructor|]. inversion P; inversion A1; subst.
      cbn [concat]. apply crs_app; [|now apply IH]. unfold prop_write, write_folded in H. destruct (fold_line _) as [f| |] eqn:E; cbn [obind] in H; try easy.
      injection H as <-. apply crs_app; [|easy]. apply fold_crs in E; [easy|]. apply line_no_cr; [|easy]. apply H2.
    - clear - F2 IH C A2. revert IH C A2. induction F2 as [|c s cs ss H F IH2]; intros IH C A2; [constructor|].
      inversion IH; inversion C; inversion A2; subst. cbn [concat]. apply crs_app; [auto|]. now apply IH2.
  Qed.
  Lemma render_lf : forall t, tree_good t -> tree_all breakless t ->
    to_lf (render CrLf (wtree_of t)) (render Lf (wtree_of t)) /\ crs_ok (render CrLf (wtree_of t)) /\ ~ In CR (render Lf (wtree_of t)).
  Proof.
    assert (L : crs_ok [CR; LF]) by (constructor; constructor). pose proof to_lf_crlf as L2.
    assert (W0 : ~ In CR (lit "BEGIN:") /\ ~ In CR (lit "END:")) by (split; vm_compute; intuition discriminate).
    assert (N0 : ~ In CR [LF]) by (vm_compute; intuition discriminate). destruct W0 as [WB WE].
    induction t as [k ps cs IH] using tree_deep. intros G A. inversion G as [? ? ? K P C]; subst. inversion A as [? ? ? A1 A2]; subst.
    assert (N : ~ In CR k) by now apply name_no_cr.
    cbn [wtree_of render end_of]. rewrite !map_app, !concat_app, !map_map.
    assert (X : let a := concat (map (fun p => wline_text (line_of p) ++ [CR; LF]) ps) in
      let b := concat (map (fun p => wline_text (line_of p) ++ [LF]) ps) in to_lf a b /\ crs_ok a /\ ~ In CR b).
    { clear - P A1 L L2 N0. cbn zeta. revert A1. induction P as [|p ps H _ IH]; intros A1; cbn [map concat]; [repeat split; try constructor; easy|].
      inversion A1; subst. destruct (IH ltac:(assumption)) as (I1 & I2 & I3).
      assert (Z : ~ In CR (wline_text (line_of p))). { rewrite line_of_text. apply line_no_cr; [apply H|easy]. }
      assert (Z2 : crs_ok (wline_text (line_of p))) by now apply crs_no_cr.
      split; [|split].
      - apply to_lf_app; [now apply crs_app| |easy]. apply to_lf_app; [easy| |easy]. now apply to_lf_no_cr.
      - apply crs_app; [|easy]. now apply crs_app.
      - rewrite !in_app_iff. tauto. }
    cbn zeta in X. destruct X as (X1 & X2 & X3).
    assert (Y : let a := concat (map (fun c => render CrLf (wtree_of c)) cs) in
      let b := concat (map (fun c => render Lf (wtree_of c)) cs) in to_lf a b /\ crs_ok a /\ ~ In CR b).
    { clear - IH C A2. cbn zeta. revert C A2. induction IH as [|c cs H _ IH]; intros C A2; cbn [map concat]; [repeat split; try constructor; easy|].
      inversion C; inversion A2; subst. destruct (IH ltac:(assumption) ltac:(assumption)) as (I1 & I2 & I3).
      destruct (H ltac:(assumption) ltac:(assumption)) as (J1 & J2 & J3). split; [now apply to_lf_app|]. split; [now apply crs_app|].
      rewrite in_app_iff. tauto. }
    cbn zeta in Y. destruct Y as (Y1 & Y2 & Y3).
    set (bw := lit "BEGIN:") in *. set (ew := lit "END:") in *.
    assert (WB2 : crs_ok bw) by now apply crs_no_cr. assert (WE2 : crs_ok ew) by now apply crs_no_cr.
    assert (N2 : crs_ok k) by now apply crs_no_cr.
    assert (Kt : to_lf k k) by now apply to_lf_no_cr. assert (Bt : to_lf bw bw) by now apply to_lf_no_cr.
    assert (Et : to_lf ew ew) by now apply to_lf_no_cr.
    split; [|split].
    - repeat (first [assumption | apply to_lf_app | apply crs_app]).
    - repeat (first [assumption | apply crs_app]).
    - rewrite !in_app_iff. tauto.
  Qed.
  Lemma wtree_of_ok_lf : forall t, tree_good t -> tree_all breakless t -> wtree_ok Lf (wtree_of t).
  Proof.
    induction t as [k ps cs IH] using tree_deep. intros G A. inversion G as [? ? ? K P C]; subst. inversion A as [? ? ? A1 A2]; subst. cbn [wtree_of].
    constructor; [easy|]. apply Forall_app. split; apply Forall_map.
    - clear - P A1. revert A1. induction P as [|p ps [H V] _ IH]; intros A1; inversion A1; subst; constructor; [|now apply IH]. constructor.
      destruct H as (K & Q & _). cbn [line_of wline_ok]. split; [easy|]. split; [|now apply value_no_lf].
      apply Forall_map. eapply Forall_impl; [|exact Q]. intros q. apply wp_of_ok.
    - clear G A. revert A2. induction IH as [|c cs H _ IH]; intros A2; [constructor|]. inversion C; inversion A2; subst. constructor; [|now apply IH].
      constructor. now apply H.
  Qed.
  Lemma lf_doc : forall t s s', tree_good t -> tree_all breakless t -> tree_write t = Ret s -> to_lf s s' ->
    unfold s' = render Lf (wtree_of t) /\ read_component (unfold s') = read_component (unfold s)
    /\ (t_name t = lit "VCALENDAR" -> read_calendar (unfold s') = read_calendar (unfold s)).
  Proof.
    intros t s s' G A W L. pose proof (tree_text_unfold t s (tree_good_fine _ G) W) as E. apply tree_write_spec in W.
    pose proof (tree_crs t G A s W) as Cr. pose proof (to_lf_unfold_eq s s' Cr L) as L'. rewrite E in *.
    destruct (render_lf t G A) as (R1 & _ & R3). pose proof (to_lf_fun _ _ _ L' R1) as E'. split; [easy|]. rewrite E'.
    destruct (doc_back t (tree_good_fine _ G)) as [D1 D2].
    destruct (document_read Lf (wtree_of t) (render Lf (wtree_of t)) []) as (_ & _ & Q1 & Q2).
    - now apply wtree_of_ok_lf.
    - apply render_text.
    - constructor.
    - intros _ (a & b & H). apply R3. rewrite H. apply in_or_app. right. now left.
    - cbn [app] in *. fold (ptree t) in *. split; [now rewrite D1|]. intros N. rewrite D2 by easy. rewrite Q2 by now rewrite ptree_name.
      destruct t as [k ps cs]. now rewrite ptree_eq.
  Qed.
  Theorem cal_lf : forall e c s s', clock_ok e -> cal_ok c -> cal_all breakless c -> cal_write e c = Ret s -> to_lf s s' ->
    calendar_from_str s' = calendar_from_str s /\ exists d, calendar_from_str s = Ok d.
  Proof.
    intros e c s s' C O B W L. split.
    - rewrite cal_write_tree in W by easy. unfold calendar_from_str. f_equal. eapply (lf_doc (cal_tree e c)); eauto.
      + now apply cal_tree_good.
      + apply cal_tree_all; [|easy|apply stamp_breakless|apply uid_breakless]. destruct O as [_ O]. eapply Forall_impl; [|exact O]. cbn beta. tauto.
    - destruct (cal_round e c s C O W) as (d & E & _). eauto.
  Qed.

  (** ** Single properties *)

  Lemma prop_unfold : forall p s, head_ok p -> mark_free (value_text p) -> prop_write p = Ret s -> unfold s = prop_line p ++ [CR; LF].
  Proof.
    intros p s H V W. unfold prop_write, write_folded in W. destruct (fold_line _) as [f| |] eqn:F; cbn [obind] in W; try easy.
    injection W as <-. change crlf with [CR; LF]. rewrite (unfold_fold_app _ _ _ F) by now apply line_mark_free. reflexivity.
  Qed.
  Lemma prop_round_head : forall p s, head_ok p -> mark_free (value_text p) -> ~ has_crlf (value_text p) -> prop_write p = Ret s ->
    read_property (unfold s) = Ok (pline p).
  Proof.
    intros p s H V C W. rewrite (prop_unfold p s) by easy. rewrite <- line_of_text. unfold read_property.
    destruct (property_text_ok (E := verror) CrLf (line_of p) [CR; LF] []) as (x & B & E).
    - now apply line_of_ok.
    - exists []. split; [easy|constructor].
    - easy.
    - rewrite app_nil_r in E. cbn [app] in E. rewrite E. easy.
  Qed.
  Lemma prop_round : forall p s, prop_ok p -> prop_write p = Ret s -> property_from_str (unfold s) = Ok p.
  Proof.
    intros p s [H V] W. destruct (value_mark_free p V). unfold property_from_str. rewrite (prop_round_head p s) by easy. cbn [rmap].
    f_equal. now apply line_of_back.
  Qed.
  (** The parameters survive whatever the value. *)
  Lemma params_round : forall p s, head_ok p -> mark_free (value_text p) -> ~ has_crlf (value_text p) -> prop_write p = Ret s ->
    exists q, property_from_str (unfold s) = Ok q /\ p_key q = p_key p /\ p_params q = p_params p.
  Proof.
    intros p s H V C W. unfold property_from_str. rewrite (prop_round_head p s) by easy. cbn [rmap]. eexists. split; [reflexivity|].
    unfold pline. rewrite line_of_conv; [easy|]. apply H.
  Qed.
  Lemma one_line : forall p s, head_ok p -> breakless p -> prop_write p = Ret s ->
    exists l, unfold s = l ++ [CR; LF] /\ ~ In LF l /\ ~ In CR l.
  Proof.
    intros p s H B W. exists (prop_line p). destruct (line_no_cr p H B). split; [|easy]. apply prop_unfold; try easy.
    apply mark_free_no_lf. now apply value_no_lf.
  Qed.

  (** ** Zero-copy documents *)

  Definition zp_of (q : pparam) : wparam := mk_wparam (pp_key q) (match pp_val q with None => FNone | Some v => FPlain v end).
  Definition zline (p : pprop) : wline := LValue (pr_name p) (map zp_of (pr_params p)) (pr_val p).
  Fixpoint ztree (c : pcomp) : wtree :=
    match c with mk_pcomp n ps cs => W n (map (fun p => inl (zline p)) ps ++ map (fun c => inr (ztree c)) cs) end.
  Lemma zline_text : forall p, wline_text (zline p) = pprop_line p.
  Proof.
    intros p. cbn [zline wline_text]. unfold pprop_line. do 2 f_equal. rewrite map_map. f_equal. apply map_ext. intros [k [v|]]; [easy|].
    unfold wparam_text. cbn. now rewrite app_nil_r.
  Qed.
  Lemma unescape_stable : forall v, ~ escapes v -> unescape_text v = v.
  Proof.
    intros v H. unfold unescape_text.
    assert (A : forall d, In d [BSL; COMMA; SEMI; COLON; 78%N; 110%N] -> contains [BSL; d] v = false).
    { intros d I. destruct (contains [BSL; d] v) eqn:E; [|easy]. exfalso. apply H. clear H. revert E.
      induction v as [|c v IH]; [easy|]. intros E. cbn [contains] in E. apply orb_true_iff in E as [E|E].
      - apply starts_with_spec in E as [r E]. exists [], d, r. now rewrite E.
      - destruct (IH E) as (a & d' & b & -> & J). now exists (c :: a), d', b. }
    now rewrite !A by (cbn [In]; auto 10).
  Qed.
  Lemma zline_read : forall p, pr_ok p -> wline_read (zline p) = p.
  Proof.
    intros [k v ps] (_ & P & _ & _ & T). cbn [zline wline_read pr_name pr_val pr_params] in *.
    assert (E : map wparam_read (map zp_of ps) = ps).
    { clear T. induction P as [|[q o] l [_ H] _ IH]; [easy|]. cbn [map]. rewrite IH. f_equal. unfold wparam_read, zp_of, wparam_value.
      cbn [wp_key wp_form pp_key pp_val] in *. now destruct o. }
    rewrite E. f_equal. unfold decode_value. destruct (determin_value_type k ps) as [[]|]; try easy. apply unescape_stable. now apply T.
  Qed.
  Lemma zline_ok : forall p, pr_ok p -> wline_ok CrLf (zline p).
  Proof.
    intros p (K & P & _ & V & _). cbn [zline wline_ok]. split; [easy|]. split; [|easy]. apply Forall_map. eapply Forall_impl; [|exact P].
    intros [k [v|]] [N Q]; split; try easy; cbn in *; intuition.
  Qed.
  Lemma zline_mark_free : forall p, pr_ok p -> mark_free (pprop_line p).
  Proof.
    intros [k v ps] ((K & _) & P & V & _). cbn [pr_name pr_val pr_params] in *. unfold pprop_line. cbn [pr_name pr_val pr_params].
    assert (A : forall s, mark_free s -> (exists c r, s = c :: r /\ (c = SEMI \/ c = COLON)) -> forall a, mark_free a -> mark_free (a ++ s)).
    { intros s S (c & r & -> & C) a Ha. apply mark_free_sep; try easy; destruct C as [->| ->]; try easy; now apply blank_not. }
    assert (B : mark_free (concat (map (fun q => match pp_val q with Some w => SEMI :: pp_key q ++ EQUALS :: w | None => SEMI :: pp_key q end) ps) ++ COLON :: v)
      /\ exists c r, concat (map (fun q => match pp_val q with Some w => SEMI :: pp_key q ++ EQUALS :: w | None => SEMI :: pp_key q end) ps) ++ COLON :: v = c :: r /\ (c = SEMI \/ c = COLON)).
    { induction P as [|[q o] l [N H] _ IH].
      - cbn [map concat app]. split; [now apply mark_free_cons_not|eauto].
      - destruct IH as [IH1 IH2]. cbn [map concat pp_val pp_key] in *. rewrite <- app_assoc. destruct o as [w|]; cbn [app].
        + split; [|eauto]. apply mark_free_cons_not; try easy. rewrite <- app_assoc. cbn [app].
          apply mark_free_sep; try easy; [now apply name_mark_free|now apply blank_not|]. apply mark_free_cons_not; try easy. now apply A.
        + split; [|eauto]. apply mark_free_cons_not; try easy. apply A; try easy. now apply name_mark_free. }
    destruct B as [B1 B2]. apply A; try easy. now apply name_mark_free.
  Qed.
  Lemma zline_unfold : forall p s r, pr_ok p -> pprop_write p = Ret s -> solid r ->
    unfold (s ++ r) = wline_text (zline p) ++ [CR; LF] ++ unfold r /\ solid (s ++ r).
  Proof.
    intros p s r H W R. unfold pprop_write, write_folded in W. destruct (fold_line _) as [f| |] eqn:F; cbn [obind] in W; try easy.
    injection W as <-. rewrite zline_text, <- app_assoc. cbn [crlf app]. split.
    - rewrite (unfold_fold_app _ _ _ F), unfold_crlf_keep; [easy|easy|]. now apply zline_mark_free.
    - apply fold_head in F; [destruct f; cbn in *; easy|]. destruct H as ((K & _) & _). unfold pprop_line. apply name_solid; [easy|].
      intros c q E. destruct (pr_params p) as [|[k [v|]] ps]; cbn in E; injection E as <- _; now apply blank_not.
  Qed.
  Lemma zlines_unfold : forall ps s r, Forall pr_ok ps -> pprops_write ps = Ret s -> solid r ->
    unfold (s ++ r) = concat (map (fun p => wline_text (zline p) ++ [CR; LF]) ps) ++ unfold r /\ solid (s ++ r).
  Proof.
    intros ps s r F. revert s. induction F as [|p ps P _ IH]; intros s W R; cbn [pprops_write] in W.
    - injection W as <-. easy.
    - destruct (pprop_write p) as [a| |] eqn:E1; cbn [obind] in W; try easy. destruct (pprops_write ps) as [b| |] eqn:E2; cbn [obind] in W; try easy.
      injection W as <-. destruct (IH b eq_refl R) as [I1 I2]. rewrite <- app_assoc. destruct (zline_unfold p a (b ++ r) P E1 I2) as [J1 J2].
      split; [|easy]. rewrite J1, I1. cbn [map concat]. now rewrite <- !app_assoc.
  Qed.
  Lemma render_ztree : forall k ps cs, render CrLf (ztree (mk_pcomp k ps cs))
    = lit "BEGIN:" ++ k ++ [CR; LF] ++ concat (map (fun p => wline_text (zline p) ++ [CR; LF]) ps)
      ++ concat (map (fun c => render CrLf (ztree c)) cs) ++ lit "END:" ++ k ++ [CR; LF].
  Proof.
    intros k ps cs. cbn [ztree render end_of]. rewrite map_app, concat_app, !map_map, <- app_assoc. easy.
  Qed.
  Lemma pcomp_unfold : forall c, pc_ok c -> forall e n s n' r, pcomp_write e c n = Ret (s, n') -> solid r ->
    unfold (s ++ r) = render CrLf (ztree c) ++ unfold r /\ solid (s ++ r).
  Proof.
    induction c as [k ps cs IH] using pcomp_deep. intros O e n s n' r W R. inversion O as [? ? ? K L P C]; subst.
    cbn [pcomp_write] in W. unfold like_extra in W. apply str_eqb_neq in L. rewrite L in W.
    destruct (pprops_write ps) as [pt| |] eqn:E1; cbn [obind] in W; try easy.
    set (go := fix go (cs : list pcomp) (n : nat) : outcome (str * nat) :=
                match cs with
                | [] => Ret ([], n)
                | c :: r => obind (pcomp_write e c n) (fun '(s, n') =>
                            obind (go r n') (fun '(t, n'') => Ret (s ++ t, n'')))
                end) in *.
    destruct (go cs n) as [[ct n2]| |] eqn:E2; cbn [obind] in W; try easy.
    assert (Es : s = lit "BEGIN:" ++ k ++ [CR; LF] ++ pt ++ ct ++ lit "END:" ++ k ++ [CR; LF]) by (pose proof (f_equal (fun o => match o with Ret (x, _) => x | _ => [] end) W) as W2; symmetry; exact W2). clear W. rewrite render_ztree.
    assert (E : solid (lit "END:" ++ k ++ [CR; LF] ++ r)) by (cbn; now apply blank_not).
    assert (X : unfold (ct ++ lit "END:" ++ k ++ [CR; LF] ++ r)
      = concat (map (fun c => render CrLf (ztree c)) cs) ++ unfold (lit "END:" ++ k ++ [CR; LF] ++ r)
      /\ solid (ct ++ lit "END:" ++ k ++ [CR; LF] ++ r)).
    { clear - IH C E2 E. revert n ct E2 C. induction IH as [|c cs H _ IH]; intros n ct E2 C.
      - cbn in E2. injection E2 as <- <-. easy.
      - inversion C; subst. change (go (c :: cs) n) with (obind (pcomp_write e c n) (fun '(s, n') =>
                            obind (go cs n') (fun '(t, n'') => Ret (s ++ t, n'')))) in E2.
        destruct (pcomp_write e c n) as [[a m]| |] eqn:Q; cbn [obind] in E2; try easy.
        destruct (go cs m) as [[b m2]| |] eqn:Q2; cbn [obind] in E2; try easy. injection E2 as <- <-.
        destruct (IH m b Q2 ltac:(assumption)) as [I1 I2]. rewrite <- app_assoc.
        destruct (H ltac:(assumption) e n a m _ Q I2) as [J1 J2]. split; [|easy]. rewrite J1, I1. cbn [map concat]. now rewrite <- !app_assoc. }
    destruct X as [X1 X2]. destruct (zlines_unfold ps pt _ P E1 X2) as [Y1 Y2].
    split; [|subst s; cbn; now apply blank_not].
    assert (Z : s ++ r = lit "BEGIN:" ++ k ++ [CR; LF] ++ pt ++ ct ++ lit "END:" ++ k ++ [CR; LF] ++ r) by (rewrite Es; now rewrite <- !app_assoc).
    rewrite Z.
    rewrite begin_unfold; [|intros I; vm_compute in I; intuition discriminate|easy|easy].
    rewrite Y1, X1. rewrite begin_unfold; [|intros I; vm_compute in I; intuition discriminate|easy|easy]. now rewrite <- !app_assoc.
  Qed.
  Lemma ztree_ok : forall c, pc_ok c -> wtree_ok CrLf (ztree c) /\ wtree_read (ztree c) = c.
  Proof.
    induction c as [k ps cs IH] using pcomp_deep. intros O. inversion O as [? ? ? K L P C]; subst. cbn [ztree]. split.
    - constructor; [easy|]. apply Forall_app. split; apply Forall_map.
      + eapply Forall_impl; [|exact P]. intros p H. constructor. now apply zline_ok.
      + clear O. induction IH as [|c cs H _ IH]; [constructor|]. inversion C; subst. constructor; [|now apply IH]. constructor. now apply H.
    - cbn [wtree_read]. rewrite !flat_map_app. f_equal.
      + transitivity (ps ++ []); [|apply app_nil_r]. f_equal.
        * clear - P. induction P as [|p ps H _ IH]; [easy|]. cbn [map flat_map app]. now rewrite IH, zline_read.
        * clear. induction cs as [|p cs IH]; [easy|]. exact IH.
      + transitivity ([] ++ cs); [|easy]. f_equal.
        * clear. induction ps as [|p ps IH]; [easy|]. exact IH.
        * clear - IH C. revert C. induction IH as [|c cs H _ IH]; intros C; [easy|]. inversion C; subst. cbn [map flat_map app].
          rewrite IH by easy. f_equal. now apply H.
  Qed.
  Theorem pcal_round : forall e c s, Forall pr_ok (pcal_props c) -> Forall pc_ok (pcal_comps c) -> pcal_write e c = Ret s ->
    read_calendar (unfold s) = Ok c.
  Proof.
    intros e [ps cs] s P C W. cbn [pcal_props pcal_comps] in *. unfold pcal_write in W. cbn [pcal_props pcal_comps] in W.
    destruct (pcomp_write _ _ 0) as [[t n]| |] eqn:E; cbn [obind] in W; try easy. injection W as ->.
    assert (O : pc_ok (mk_pcomp (lit "VCALENDAR") ps cs)).
    { constructor; try easy. apply name_ok_spec; reflexivity. }
    destruct (pcomp_unfold _ O e 0 s n [] E I) as [X _]. rewrite app_nil_r in X. rewrite X. change (unfold []) with (@nil char). rewrite app_nil_r.
    destruct (ztree_ok _ O) as [Z1 Z2].
    destruct (document_read CrLf (ztree (mk_pcomp (lit "VCALENDAR") ps cs)) (render CrLf (ztree (mk_pcomp (lit "VCALENDAR") ps cs))) []) as (_ & _ & _ & Q); try easy.
    - apply render_text.
    - constructor.
    - cbn [app] in Q. rewrite Q; rewrite Z2; easy.
  Qed.
End Lf.
