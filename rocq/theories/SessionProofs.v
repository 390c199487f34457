(** Sessions. *)
From Verif Require Import Str StrFacts Spec Fold Text ValueTypes Property Chrono DateTime
  Component Alarm Calendar Nom Parser SpecBuild SpecDate SpecTree SpecDoc SpecConv SpecCal SpecRound SpecExact SpecSession BuildProofs ValueProofs DateProofs UnfoldProofs
  TreeProofs ParserProofs DocProofs ConvProofs CalProofs RoundProofs AlikeProofs RoundChecks ExactProofs UserProofs.
From Coq Require Import ZifyBool ZifyNat ZifyN.

Lemma lf_plain : forall v, ~ In LF v -> plain_value v.
Proof. intros v N. split; [|now apply mark_free_no_lf]. intros (a & b & ->). apply N, in_or_app. right. right. now left. Qed.
Lemma pad_no_lf : forall w n, ~ In LF (pad w n).
Proof. intros w n I. pose proof (pad_digits w n) as D. rewrite forallb_forall in D. now apply D in I. Qed.
Lemma dec_no_lf : forall n, ~ In LF (dec n).
Proof. intros n I. pose proof (dec_digits n) as D. rewrite forallb_forall in D. now apply D in I. Qed.
Lemma lit_no_lf : forall s, without [LF] (lit s) = true -> ~ In LF (lit s).
Proof. intros s V. apply (without_spec _ _ V LF). now left. Qed.
Lemma date_no_lf : forall d, ~ In LF (fmt_date d).
Proof.
  intros d. unfold fmt_date, fmt_year. rewrite !in_app_iff. intros I.
  destruct I as [I|[I|I]]; [|now apply pad_no_lf in I|now apply pad_no_lf in I].
  destruct ((0 <=? year d) && (year d <=? 9999))%Z; [now apply pad_no_lf in I|]. destruct I as [I|I]; [|now apply pad_no_lf in I].
  now destruct (year d <? 0)%Z.
Qed.
Lemma time_no_lf : forall t, ~ In LF (fmt_time t).
Proof. intros t. unfold fmt_time. rewrite !in_app_iff. intros [I|[I|I]]; now apply pad_no_lf in I. Qed.
Lemma dt_no_lf : forall d, ~ In LF (dt_text d).
Proof.
  intros d. unfold dt_text. rewrite !in_app_iff. intros [I|[I|I]]; [now apply date_no_lf in I| |now apply time_no_lf in I]. vm_compute in I. intuition discriminate.
Qed.
Lemma dpt_no_lf : forall x, ~ In LF (dpt_text x).
Proof.
  intros [[d|d|d z]|d]; cbn [dpt_text]; try apply dt_no_lf; [|apply date_no_lf].
  rewrite in_app_iff. intros [I|I]; [now apply dt_no_lf in I|]. vm_compute in I. intuition discriminate.
Qed.
Lemma frac_no_lf : forall f w n, ~ In LF (frac_go f w n).
Proof. induction f as [|f IH]; intros w n; cbn [frac_go]; try apply pad_no_lf. destruct (n mod 10 =? 0)%N; [apply IH|apply pad_no_lf]. Qed.
Lemma dur_no_lf : forall d, ~ In LF (dur_text d).
Proof.
  intros d. unfold dur_text. cbn zeta. generalize (Z.abs_N d). intros a. rewrite !in_app_iff. intros [I|[I|I]].
  - destruct (d <? 0)%Z; vm_compute in I; intuition discriminate.
  - vm_compute in I. intuition discriminate.
  - destruct (a =? 0)%N; [vm_compute in I; intuition discriminate|]. rewrite !in_app_iff in I. destruct I as [I|[I|[I|I]]].
    + vm_compute in I. intuition discriminate.
    + now apply dec_no_lf in I.
    + destruct (a mod GIGA =? 0)%N; [easy|]. destruct I as [I|I]; [discriminate|now apply frac_no_lf in I].
    + vm_compute in I. intuition discriminate.
Qed.

Section Session.
  Context {U : Unicode}.

  Lemma fine_plain : forall k v l, prop_name_okb (lit k) = true -> Forall param_ok l -> NoDup (map fst l) -> plain_value v -> line_fine (mk_property (lit k) v l).
  Proof. intros k v l K P D V. split; [|easy]. split; [now apply prop_name_okb_spec|]. now split. Qed.
  Lemma fine_one : forall k v, prop_name_okb (lit k) = true -> plain_value v -> line_fine (text_prop k v).
  Proof. intros k v K V. apply fine_plain; [easy|constructor|constructor|easy]. Qed.
  Lemma fine_text : forall k v l, prop_name_okb (lit k) = true -> Forall param_ok l -> NoDup (map fst l) -> is_text (mk_property (lit k) v l) -> line_fine (mk_property (lit k) v l).
  Proof. intros k v l K P D T. split; [|easy]. split; [now apply prop_name_okb_spec|]. now split. Qed.
  Lemma param_fine : forall k v, forallb is_key_char (lit k) = true -> pvalue_ok v -> param_ok (lit k, v).
  Proof. intros k v K V. split; [now apply name_ok_spec|easy]. Qed.
  Lemma lit_value : forall s, without [LF; DQ] (lit s) = true -> pvalue_ok (lit s).
  Proof. intros s V. pose proof (without_spec _ _ V) as W. split; [apply mark_free_no_lf, W; now left|]. left. apply W. right. now left. Qed.
  Lemma dpt_params_ok : forall x, zone_safe x -> Forall param_ok (dpt_params x) /\ NoDup (map fst (dpt_params x)).
  Proof.
    intros [[d|d|d z]|d] Z; cbn [dpt_params]; (split; [repeat (constructor; try (apply param_fine; [reflexivity|try exact Z; now apply lit_value]))|repeat (constructor; try easy)]).
  Qed.
  Lemma fine_dpt : forall k x, prop_name_okb (lit k) = true -> zone_safe x -> line_fine (dpt_prop k x).
  Proof. intros k x K Z. destruct (dpt_params_ok x Z) as [P D]. apply fine_plain; [easy|easy|easy|]. apply lf_plain, dpt_no_lf. Qed.
  Lemma fine_utc : forall k d, prop_name_okb (lit k) = true -> line_fine (utc_prop k d).
  Proof. intros k d K. apply fine_one; [easy|]. apply lf_plain, (dpt_no_lf (DT (Utc d))). Qed.

  Lemma sets_fine : forall c, call_safe c -> Forall line_fine (sets c).
  Proof.
    intros c H. destruct c; cbn [call_safe sets] in *; try easy; repeat (apply Forall_cons || apply Forall_nil); try easy;
      try (apply fine_dpt; [reflexivity|easy]); try (apply fine_utc; reflexivity); try (apply fine_one; [reflexivity|easy]);
      try (apply fine_one; [reflexivity|]; apply lf_plain, dec_no_lf);
      try (apply fine_text; [reflexivity|apply Forall_nil|apply NoDup_nil|vm_compute; reflexivity]).
    - apply fine_text; [reflexivity|constructor; [now apply param_fine|constructor]|constructor; [easy|constructor]|vm_compute; reflexivity].
  Qed.
  Lemma multis_fine : forall c, call_safe c -> Forall line_fine (multis c).
  Proof. intros c H. destruct c; cbn [call_safe multis] in *; try easy; constructor; easy. Qed.
  Lemma trigger_fine : forall t, trigger_safe t -> line_fine (trigger_prop t).
  Proof.
    intros [d r|c] T; cbn [trigger_prop trigger_safe] in *.
    - destruct r as [r|]; [|apply fine_one; [reflexivity|apply lf_plain, dur_no_lf]].
      apply fine_plain; [reflexivity| |constructor; [easy|constructor]|apply lf_plain, dur_no_lf]. constructor; [|constructor]. destruct r; apply param_fine; (reflexivity || now apply lit_value).
    - destruct (dpt_params_ok _ T) as [P D]. apply fine_plain; [reflexivity| | |apply lf_plain, dpt_no_lf].
      + apply Forall_app. split; [easy|]. constructor; [|constructor]. apply param_fine; [reflexivity|now apply lit_value].
      + destruct c; cbn [dpt_params app map fst]; repeat (constructor; try easy). intros [E|[]]. vm_compute in E. discriminate.
  Qed.

  (** Calls. *)
  Lemma last_in : forall k l p, last_with k l = Some p -> In p l.
  Proof. intros k l p H. pose proof (last_with_spec k l) as S. rewrite H in S. destruct S as (a & b & -> & _). apply in_or_app. right. now left. Qed.
  Lemma call_fine : forall i c, inner_fine i -> Forall line_fine (sets c) -> Forall line_fine (multis c) ->
    Forall (fun o => name_ok (fst o) /\ inner_fine (snd o)) (subs c) -> inner_fine (do_call i c).
  Proof.
    intros i c F A B C. inversion F as [? F1 F2 F3]; subst. constructor.
    - intros k p. rewrite get_call. destruct (last_with k (sets c)) eqn:E; [|apply F1]. intros X. injection X as ->. apply last_in in E. rewrite Forall_forall in A. now apply A.
    - intros k ps. rewrite do_call_multi, insert_multis_get.
      assert (G : Forall line_fine (filter (fun q => str_eqb (p_key q) k) (multis c))).
      { apply Forall_forall. intros x I. apply filter_In in I as [I _]. rewrite Forall_forall in B. now apply B. }
      destruct (map_get k (i_multi i)) as [v|] eqn:E; cbn [opt_app].
      + intros X. injection X as <-. apply Forall_app. split; [now apply (F2 k)|exact G].
      + destruct (filter _ _) eqn:E2; [easy|]. intros X. injection X as <-. exact G.
    - rewrite do_call_comps. apply Forall_app. now split.
  Qed.

  (** Loading. *)
  Lemma back_fine : forall p, line_fine p -> line_fine (back p).
  Proof.
    intros p F. destruct (line_reread p F) as (K & P & _ & V). fold (back p) in *. destruct F as [H W].
    assert (I : is_text p <-> is_text (back p)) by (unfold is_text, prop_value_type; now rewrite K, P).
    split; [unfold head_ok in *; now rewrite K, P|]. intros N. rewrite V by tauto. apply W. tauto.
  Qed.
  Lemma tree_back_fine : forall t, tree_fit line_fine t -> inner_fine (conv_inner (ptree t)).
  Proof.
    induction t as [k ps cs IH] using tree_deep. intros F. inversion F as [? ? ? _ P C]; subst. constructor.
    - intros key q. rewrite conv_single_of. destruct (is_multi_name key); [easy|]. destruct (last_with key ps) as [p|] eqn:E; [|easy]. cbn [option_map]. intros X. injection X as <-.
      apply back_fine. apply last_in in E. rewrite Forall_forall in P. now apply P.
    - intros key qs. rewrite conv_multi_of. destruct (is_multi_name key); [|easy].
      assert (G : Forall line_fine (filter (fun p => str_eqb (p_key p) key) ps)).
      { apply Forall_forall. intros x I. apply filter_In in I as [I _]. rewrite Forall_forall in P. now apply P. }
      destruct (filter _ _) as [|x l]; [easy|]. intros X. injection X as <-. apply (Forall_map (fun p => conv_prop (pline p)) line_fine (x :: l)).
      eapply Forall_impl; [|exact G]. exact back_fine.
    - rewrite ptree_eq, conv_inner_comps. clear - IH C. induction C as [|t cs H _ IHl]; [constructor|]. inversion IH; subst. cbn [map].
      constructor; [|auto]. cbn [fst snd]. split; [rewrite ptree_name; now inversion H|auto].
  Qed.
  Lemma loaded_fine : forall e c s d, clock_ok e -> cal_fine c -> cal_write e c = Ret s -> calendar_from_str s = Ok d -> cal_fine d.
  Proof.
    intros e c s d C F W R. rewrite (fine_back e c s C F W) in R. injection R as <-. pose proof (cal_tree_fit e c F) as T. inversion T as [? ? ? _ P D]; subst. split; cbn [c_props c_comps].
    - apply Forall_map. eapply Forall_impl; [|exact P]. exact back_fine.
    - apply Forall_map. eapply Forall_impl; [|exact D]. intros t H. destruct (conv_cc_kind (ptree t)) as [K I]. unfold comp_fine. rewrite K, I. split; [|split].
      + rewrite ptree_name. now inversion H.
      + apply made_parsed.
      + now apply tree_back_fine.
  Qed.

  Definition good (i : inner) : Prop := made i /\ inner_fine i.
  Lemma good_call : forall i c, good i -> Forall line_fine (sets c) -> Forall line_fine (multis c) ->
    Forall (fun o => name_ok (fst o) /\ good (snd o)) (subs c) -> good (do_call i c).
  Proof.
    intros i c [M F] A B C. split.
    - apply made_call; [easy|]. eapply Forall_impl; [|exact C]. intros o H. apply H.
    - apply call_fine; try easy. eapply Forall_impl; [|exact C]. intros o (H1 & _ & H2). now split.
  Qed.
  Lemma good_append : forall i p, good i -> line_fine p -> good (append_property i p).
  Proof. intros i p G F. apply (good_call i (KAppend p)); [easy| | |]; repeat (constructor; try easy). Qed.
  Lemma good_new : good inner_new.
  Proof. split; [apply made_new|]. constructor; [easy|easy|constructor]. Qed.
  Lemma made_inside : forall i, made i -> forall n j, In (n, j) (i_comps i) -> made j.
  Proof.
    intros i M. induction M as [|i c M IH F|c]; intros n j I.
    - easy.
    - rewrite do_call_comps in I. apply in_app_or in I as [I|I]; [now apply (IH n)|]. rewrite Forall_forall in F. now apply (F (n, j)).
    - destruct c as [k ps cs]. rewrite conv_inner_comps in I. apply in_map_iff in I as (x & E & _). injection E as _ <-. apply made_parsed.
  Qed.
  Lemma good_inside : forall i n j, good i -> In (n, j) (i_comps i) -> good j.
  Proof.
    intros i n j [M F] I. split; [now apply (made_inside i M n)|]. inversion F as [? _ _ F3]; subst. rewrite Forall_forall in F3. now apply (F3 (n, j)).
  Qed.
  Lemma good_start : forall a, trigger_safe (start_trigger a) -> good (do_start a).
  Proof.
    intros a T. destruct a as [t|desc t]; cbn [start_trigger] in T; cbn [do_start]; unfold alarm_audio, alarm_display; rewrite trigger_to_prop.
    - apply good_append; [|now apply trigger_fine]. apply good_append; [apply good_new|]. apply fine_one; [reflexivity|]. apply lf_plain. now apply lit_no_lf.
    - apply (good_call _ (KDescription desc)); [|now apply sets_fine|now apply multis_fine|constructor].
      apply good_append; [|now apply trigger_fine]. apply good_append; [apply good_new|]. apply fine_one; [reflexivity|]. apply lf_plain. now apply lit_no_lf.
  Qed.
  Lemma good_repeat : forall i d n, good i -> good (duration_and_repeat i d n).
  Proof.
    intros i d n G. unfold duration_and_repeat. apply good_append; [apply good_append; [exact G|]|]; apply fine_one; try reflexivity; apply lf_plain; [apply dur_no_lf|apply dec_no_lf].
  Qed.

  Lemma fine_append : forall c p, cal_fine c -> line_fine p -> cal_fine (cal_append_property c p).
  Proof. intros c p [P F] L. split; [|exact F]. cbn [cal_append_property c_props]. apply Forall_app. split; [exact P|]. now constructor. Qed.
  Lemma session_good : (forall i, comp_session i -> good i) /\ (forall c, cal_session c -> cal_fine c).
  Proof.
    apply session_mut.
    - apply good_new.
    - intros a T. now apply good_start.
    - intros i d n _ G. now apply good_repeat.
    - intros i c _ G S. apply good_call; [exact G|now apply sets_fine|now apply multis_fine|]. destruct c; cbn [call_safe] in S; try easy; constructor.
    - intros i n j _ G N _ H. apply (good_call i (KSub (n, j))); try easy; [constructor|constructor|]. constructor; [easy|constructor].
    - intros i a _ G _ H. apply (good_call i (KAlarm a)); try easy; [constructor|constructor|]. constructor; [|constructor]. split; [now apply name_ok_spec|easy].
    - intros i n j _ G I. now apply (good_inside i n).
    - intros c x _ [_ F] I. rewrite Forall_forall in F. destruct (F x I) as (_ & M & G). now split.
    - split; [|constructor]. unfold cal_new. cbn [c_props]. unfold Calendar.default_props. repeat (constructor; [apply (fine_one _ _); [reflexivity|]; apply lf_plain; now apply lit_no_lf|]). constructor.
    - split; constructor.
    - intros c p _ F L. now apply fine_append.
    - intros c s _ F V. apply fine_append; [apply fine_append; [exact F|]|]; now apply fine_one.
    - intros c s _ F V. apply fine_append; [apply fine_append; [exact F|]|]; now apply fine_one.
    - intros c s _ F V. apply fine_append; [apply fine_append; [exact F|]|]; now apply fine_one.
    - intros c d _ F. apply fine_append; [apply fine_append; [exact F|]|]; [|apply fine_one; [reflexivity|apply lf_plain, dur_no_lf]].
      apply (fine_plain "REFRESH-INTERVAL" (dur_text d) [(lit "VALUE", lit "DURATION")]); [reflexivity| |constructor; [easy|constructor]|apply lf_plain, dur_no_lf].
      constructor; [|constructor]. apply param_fine; [reflexivity|now apply lit_value].
    - intros c x _ [P F] N _ [M G]. split; [exact P|]. cbn [cal_push c_comps]. apply Forall_app. split; [exact F|]. now constructor.
    - intros c l _ [P F] I. split; [exact P|]. cbn [c_comps]. apply Forall_forall. intros x X. rewrite Forall_forall in F. now apply F, I.
    - intros c d _ [P F] _ [Q G]. split; [exact P|]. cbn [cal_append fst c_comps]. apply Forall_app. now split.
    - intros c d _ _ _ [Q G]. split; [exact Q|constructor].
    - intros s c _ F. exact F.
    - intros e c s d _ F C W R. now apply (loaded_fine e c s).
  Qed.
  Theorem session_loads : forall e c s, cal_session c -> clock_ok e -> cal_write e c = Ret s ->
    exists d, calendar_from_str s = Ok d /\ cal_session d /\ Forall2 reread (c_props c) (c_props d) /\ Forall2 (comp_reread e) (c_comps c) (c_comps d).
  Proof.
    intros e c s S C W. destruct (cal_reads e c s C (proj2 session_good c S) W) as (d & R & A & B). exists d. split; [exact R|]. split; [|now split].
    now apply (sc_loaded e c s).
  Qed.
End Session.
