(** C36, C84: exactly which texts are written again as they were, and which data have the same text. *)
From Verif Require Import Str Spec Fold Text ValueTypes Property Chrono DateTime Component Alarm Calendar Nom Parser
  SpecBuild SpecDate SpecTree SpecDoc SpecConv SpecRound SpecExact SpecSettle StrFacts BuildProofs TreeProofs ParserProofs DocProofs ConvProofs RoundProofs
  UnfoldProofs LfProofs RoundChecks ExactProofs InjectProofs SettleProofs Properties_Build Properties_Round.

(** The text of a component is written again after it is read, at whatever time, if and only if no TEXT value is confused (C06) and in it and all its
    sub-components the names were written in the order in which they are written after reading: those not known as multi-valued first, each once
    and in ascending order, the others in ascending order.  A generated DTSTAMP or UID counts like any other property. *)
Theorem C36_component_exact : forall {U : Unicode} e e' x n s m t, clock_ok e -> clock_ok e' -> comp_fine x -> cc_write e x n = Ret (s, m) ->
  arranged e (cc_kind x) (cc_inner x) t ->
  exists d, cc_from_str s = Ok d /\ forall n', (exists m', cc_write e' d n' = Ret (s, m')) <-> settled t.
Proof. exact @comp_settles. Qed.
Print Assumptions C36_component_exact.
(** And so is the text of a calendar. *)
Theorem C36_exact : forall {U : Unicode} e e' c s ts, clock_ok e -> clock_ok e' -> cal_fine c -> cal_write e c = Ret s ->
  Forall2 (fun x t => arranged e (cc_kind x) (cc_inner x) t) (c_comps c) ts ->
  exists d, calendar_from_str s = Ok d /\ (cal_write e' d = Ret s <-> Forall unconfused (c_props c) /\ Forall settled ts).
Proof. exact @cal_settles. Qed.
Print Assumptions C36_exact.

(** ** C84 *)
(** Two components with DTSTAMP and UID have the same text if and only if they have the same kind, the same properties in the same order, and
    sub-components of which the same is true. *)
Theorem C84_component_exact : forall {U : Unicode} e e' c d n n' m s, clock_ok e -> clock_ok e' -> comp_fine c -> comp_fine d ->
  has_stamps (cc_inner c) -> has_stamps (cc_inner d) -> cc_write e c n = Ret (s, m) ->
  ((exists m', cc_write e' d n' = Ret (s, m')) <-> exists t, arranged e (cc_kind c) (cc_inner c) t /\ arranged e' (cc_kind d) (cc_inner d) t).
Proof. exact @comp_texts. Qed.
Print Assumptions C84_component_exact.
Theorem C84_exact : forall {U : Unicode} e e' c d s, clock_ok e -> clock_ok e' -> cal_fine c -> cal_fine d ->
  Forall (fun x => has_stamps (cc_inner x)) (c_comps c) -> Forall (fun x => has_stamps (cc_inner x)) (c_comps d) -> cal_write e c = Ret s ->
  (cal_write e' d = Ret s <-> c_props c = c_props d
     /\ exists ts, Forall2 (fun x t => arranged e (cc_kind x) (cc_inner x) t) (c_comps c) ts
        /\ Forall2 (fun x t => arranged e' (cc_kind x) (cc_inner x) t) (c_comps d) ts).
Proof. exact @cal_texts. Qed.
Print Assumptions C84_exact.

Section C36.
Local Existing Instance some_unicode.
(** A multi-property with an unknown name and a single property with a multi-valued one, in the order of reading; generated DTSTAMP and UID in place. *)
Definition calm_inner : inner :=
  run_calls [KMulti (prop_new (lit "X-ZZ") (lit "a")); KAdd (lit "SUMMARY") (lit "b,c")] inner_new.
(** CATEGORIES as a single property, before DTSTAMP in the order of names, and a name after UID. *)
Definition late_inner : inner := run_calls [KAdd (lit "CATEGORIES") (lit "a"); KAdd (lit "URL") (lit "b")] inner_new.
Definition of_inner (i : inner) : calendar := mk_calendar [prop_new (lit "VERSION") (lit "2.0")] [CEvent i].
Lemma made_run : forall l, Forall (fun c => subs c = []) l -> made (run_calls l inner_new).
Proof.
  intros l. induction l as [|c l IH] using rev_ind; intros F; [apply made_new|]. apply Forall_app in F as [F G]. inversion G as [|? ? S _]; subst.
  unfold run_calls. rewrite fold_left_app. cbn [fold_left]. apply made_call; [now apply IH|]. rewrite S. constructor.
Qed.
Lemma fine_new : forall k v, prop_name_okb (lit k) = true -> without [LF] v = true -> line_fine (prop_new (lit k) v).
Proof.
  intros k v K V. split; [split; [now apply prop_name_okb_spec|split; constructor]|]. intros _. pose proof (without_spec _ _ V LF (or_introl eq_refl)) as L.
  cbn [prop_new p_val]. split; [|now apply mark_free_no_lf]. intros (a & b & E). apply L. rewrite E. apply in_or_app. right. right. now left.
Qed.
Lemma calm_fine : cal_fine (of_inner calm_inner) /\ cal_fine (of_inner late_inner).
Proof.
  split; (split; [constructor; [now apply fine_new|constructor]|]); (constructor; [|constructor]); (split; [now apply name_ok_spec|]);
    (split; [apply made_run; repeat constructor|]); cbn [cc_inner of_inner]; (constructor; [| |constructor]).
  - intros k p G. apply map_get_in in G. vm_compute in G. destruct G as [G|[]]. injection G as <- <-. now apply (fine_new "SUMMARY"%string).
  - intros k p G. apply map_get_in in G. vm_compute in G. destruct G as [G|[]]. injection G as <- <-.
    constructor; [now apply (fine_new "X-ZZ"%string)|constructor].
  - intros k p G. apply map_get_in in G. vm_compute in G. destruct G as [G|[G|[]]]; injection G as <- <-.
    + now apply (fine_new "CATEGORIES"%string).
    + now apply (fine_new "URL"%string).
  - intros k p G. apply map_get_in in G. vm_compute in G. destruct G.
Qed.
Lemma plain_unconfused : forall p, existsb (N.eqb BSL) (p_val p) = false -> unconfused p.
Proof.
  intros p H _ (a & d & b & E & _). rewrite E in H. apply not_true_iff_false in H. apply H, existsb_exists. exists BSL. split; [|easy].
  apply in_or_app. right. now left.
Qed.
Example C36_exact_example : cal_fine (of_inner calm_inner) /\ cal_fine (of_inner late_inner)
  /\ (exists t, arranged some_env (lit "VEVENT") calm_inner t /\ settled t) /\ (exists t, arranged some_env (lit "VEVENT") late_inner t /\ ~ settled t)
  /\ (exists s d, cal_write some_env (of_inner calm_inner) = Ret s /\ calendar_from_str s = Ok d /\ cal_write some_env d = Ret s /\ d <> of_inner calm_inner)
  /\ (exists s d s', cal_write some_env (of_inner late_inner) = Ret s /\ calendar_from_str s = Ok d /\ cal_write some_env d = Ret s' /\ s' <> s).
Proof.
  assert (A : forall l, Forall (fun c => subs c = []) l ->
    arranged some_env (lit "VEVENT") (run_calls l inner_new) (fst (stamp_tree some_env (lit "VEVENT") (run_calls l inner_new) 0))).
  { intros l F. apply stamp_tree_arranged. now apply made_well, made_run. }
  split; [apply calm_fine|]. split; [apply calm_fine|]. split; [|split; [|split]].
  - eexists. split; [apply A; repeat constructor|]. vm_compute fst. constructor; [|repeat (constructor; [now apply plain_unconfused|]); constructor|constructor].
    exists [lit "DTSTAMP"; lit "SUMMARY"; lit "UID"; lit "X-ZZ"], []. split; [reflexivity|]. split; [|split; [|now split]].
    + repeat (constructor; [now apply multi_name_not|]). constructor.
    + cbn [ascending]. repeat split; repeat (constructor; [now apply str_lt_cmp|]); constructor.
  - eexists. split; [apply A; repeat constructor|]. vm_compute fst. intros S. inversion S as [? ? ? (a & b & E & N1 & N2 & N3 & N4) _ _]; subst.
    cbn [map p_key prop_new] in E.
    destruct a as [|k a].
    { cbn [app] in E. subst b. apply Forall_inv in N3. apply is_multi_name_spec in N3. now vm_compute in N3. }
    cbn [app] in E. injection E as <- E. destruct a as [|k a].
    + cbn [app] in E. subst b. apply Forall_inv_tail, Forall_inv in N3. apply is_multi_name_spec in N3. now vm_compute in N3.
    + cbn [app] in E. injection E as <- E. apply Forall_inv_tail, Forall_inv in N1. apply N1. apply is_multi_name_spec. reflexivity.
  - eexists _, _. split; [vm_compute; reflexivity|]. split; [vm_compute; reflexivity|]. split; [vm_compute; reflexivity|]. discriminate.
  - eexists _, _, _. split; [vm_compute; reflexivity|]. split; [vm_compute; reflexivity|]. split; [vm_compute; reflexivity|]. discriminate.
Qed.
(** Two different calendars with the same text: X-ZZ as a single property and as a multi-property. *)
Definition same_inner (c : call) : inner := run_calls [KUid (lit "u"); KAdd (lit "DTSTAMP") (lit "20200101T000000Z"); c] inner_new.
Definition same_one : inner := same_inner (KAdd (lit "X-ZZ") (lit "a")).
Definition same_two : inner := same_inner (KAddMulti (lit "X-ZZ") (lit "a")).
Example C84_exact_example : cal_fine (of_inner same_one) /\ cal_fine (of_inner same_two) /\ has_stamps same_one /\ has_stamps same_two /\ same_one <> same_two
  /\ (exists t, arranged some_env (lit "VEVENT") same_one t /\ arranged some_env (lit "VEVENT") same_two t)
  /\ exists s, cal_write some_env (of_inner same_one) = Ret s /\ cal_write some_env (of_inner same_two) = Ret s.
Proof.
  assert (G : forall i, i = same_one \/ i = same_two -> cal_fine (of_inner i)).
  { intros i E. split; [constructor; [now apply fine_new|constructor]|]. constructor; [|constructor]. split; [now apply name_ok_spec|].
    cbn [cc_inner]. split; [destruct E as [->| ->]; apply made_run; repeat constructor|].
    destruct E as [->| ->]; (constructor; [| |constructor]); intros k p G; apply map_get_in in G; vm_compute in G.
    - destruct G as [G|[G|[G|[]]]]; injection G as <- <-; [now apply (fine_new "DTSTAMP"%string)|now apply (fine_new "UID"%string)|now apply (fine_new "X-ZZ"%string)].
    - destruct G.
    - destruct G as [G|[G|[]]]; injection G as <- <-; [now apply (fine_new "DTSTAMP"%string)|now apply (fine_new "UID"%string)].
    - destruct G as [G|[]]. injection G as <- <-. constructor; [now apply (fine_new "X-ZZ"%string)|constructor]. }
  split; [apply G; auto|]. split; [apply G; auto|]. split; [constructor; [discriminate|discriminate|constructor]|].
  split; [constructor; [discriminate|discriminate|constructor]|]. split; [discriminate|]. split.
  - exists (fst (stamp_tree some_env (lit "VEVENT") same_one 0)). split; [apply stamp_tree_arranged, made_well, made_run; repeat constructor|].
    change (fst (stamp_tree some_env (lit "VEVENT") same_one 0)) with (fst (stamp_tree some_env (lit "VEVENT") same_two 0)).
    apply stamp_tree_arranged, made_well, made_run; repeat constructor.
  - eexists. split; vm_compute; reflexivity.
Qed.
End C36.
