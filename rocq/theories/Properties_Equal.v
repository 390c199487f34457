(** Equality: C100. *)
From Verif Require Import Str StrFacts Spec Fold ValueTypes Property Chrono DateTime Component Alarm Calendar Nom Parser ZeroCopy Equal
  SpecBuild SpecDate SpecTree SpecText SpecConv SpecAccess SpecRound SpecAlike SpecCopy SpecFold SpecFail SpecMore SpecScan SpecGetters SpecExact SpecBack SpecSurvive SpecEqual
  AlikeProofs SurviveProofs FailProofs EqualProofs Properties_Build Properties_Survive.

(** C100. Two properties are equal ([==]) exactly if they have the same name, value and parameters, in whatever order; two components
    exactly if they have equal properties under every name, equal multi-properties in the same order, and equal sub-components of the same
    names in the same order; two calendars exactly if their properties and components are equal one by one. *)
Theorem C100_property : forall p q, params_once p -> params_once q -> (prop_eqb p q = true <-> reordered p q).
Proof. exact prop_eqb_same. Qed.
Print Assumptions C100_property.
Theorem C100_component : forall c d, made (cc_inner c) -> made (cc_inner d) -> inner_all params_once (cc_inner c) -> inner_all params_once (cc_inner d) ->
  (cc_eqb c d = true <-> same_cc c d).
Proof. exact cc_eqb_same. Qed.
Print Assumptions C100_component.
Theorem C100_calendar : forall c d, Forall (fun x => made (cc_inner x)) (c_comps c) -> Forall (fun x => made (cc_inner x)) (c_comps d) ->
  cal_all params_once c -> cal_all params_once d -> (cal_eqb c d = true <-> same_cal c d).
Proof. exact cal_eqb_same. Qed.
Print Assumptions C100_calendar.
(** It is an equivalence, ... *)
Theorem C100_equivalence : (forall c, same_cal c c) /\ (forall c d, same_cal c d -> same_cal d c)
  /\ (forall c d e, same_cal c d -> same_cal d e -> same_cal c e).
Proof. split; [exact same_cal_refl|]. split; [exact same_cal_sym|exact same_cal_trans]. Qed.
Print Assumptions C100_equivalence.
(** ... no getter tells equal components apart, ... *)
Theorem C100_getters : forall {U : Unicode} i j, inner_all params_once i -> same_inner i j ->
  (forall f, field_get f i = field_get f j) /\ (forall f, time_get f i = time_get f j) /\ (forall f, date_get f i = date_get f j)
  /\ (forall f, num_get f i = num_get f j) /\ get_class i = get_class j /\ event_get_status i = event_get_status j /\ todo_get_status i = todo_get_status j.
Proof. intros U. exact same_inner_getters. Qed.
Print Assumptions C100_getters.
(** ... and the texts have the same lines in the same order but for the order of the parameters in each.  Without two parameters in one
    property there is no difference at all. *)
Theorem C100_lines : forall c d ps qs, Forall (fun x => made (cc_inner x)) (c_comps c) -> Forall (fun x => made (cc_inner x)) (c_comps d) ->
  same_cal c d -> cal_in_order c ps -> cal_in_order d qs -> Forall2 reordered ps qs.
Proof. exact cal_order_same. Qed.
Print Assumptions C100_lines.
Theorem C100_text : forall {U : Unicode} e c d, Forall (fun x => made (cc_inner x)) (c_comps c) -> Forall (fun x => made (cc_inner x)) (c_comps d) ->
  cal_all one_order c -> same_cal c d -> cal_write e c = cal_write e d.
Proof. intros U e c d C D O S. now rewrite (one_order_cal c d). Qed.
Print Assumptions C100_text.
(** With two parameters the order can decide whether there is a text: of two equal calendars one is written and the other panics. *)
Definition two_params (ps : list parameter) : calendar := mk_calendar [mk_property (lit "A") (lit "v") ps] [].
Theorem C100_order : forall {U : Unicode} e, exists c d s, cal_eqb c d = true /\ same_cal c d /\ cal_all params_once c /\ cal_all params_once d
  /\ cal_write e c = Panic /\ cal_write e d = Ret s.
Proof.
  intros U e. pose (a := (lit "B", repeat 128512%N 40)). pose (b := (lit "C", repeat 32%N 100)).
  exists (two_params [a; b]), (two_params [b; a]). eexists. split; [now vm_compute|]. split; [|split; [|split; [|split; [now vm_compute|vm_compute; reflexivity]]]].
  - split; [|constructor]. constructor; [|constructor]. split; [easy|]. split; [easy|]. apply perm_swap.
  - split; [|constructor]. constructor; [|constructor]. cbn. constructor; [|constructor; [easy|constructor]]. intros [E|[]]. vm_compute in E. discriminate E.
  - split; [|constructor]. constructor; [|constructor]. cbn. constructor; [|constructor; [easy|constructor]]. intros [E|[]]. vm_compute in E. discriminate E.
Qed.
Print Assumptions C100_order.
(** The assertion that what is read back is equal to what was written holds exactly for the calendars of C90. *)
Theorem C100_read_back : forall {U : Unicode} e c s, clock_ok e -> Forall (fun x => made (cc_inner x)) (c_comps c) -> cal_all line_tame c -> cal_all params_once c ->
  cal_write e c = Ret s ->
  ((exists d, calendar_from_str s = Ok d /\ cal_eqb d c = true) <-> cal_ok c /\ Forall (fun x => has_stamps (cc_inner x)) (c_comps c)).
Proof.
  intros U e c s C M T O W. rewrite <- (proj1 (C90_same_calendar e c s C M T W)).
  assert (P : forall d, calendar_from_str s = Ok d -> (cal_eqb d c = true <-> same_cal d c)).
  { intros d D. unfold calendar_from_str in D. destruct (read_calendar (unfold s)) as [p|x|]; cbn [rmap] in D; try easy. injection D as <-.
    destruct (conv_cal_once p) as [X Y]. now apply cal_eqb_same. }
  split; intros (d & D & E); exists d; (split; [easy|]); now apply P.
Qed.
Print Assumptions C100_read_back.
(** Parsed components are equal exactly if they say the same, wherever their strings are. *)
Theorem C100_parsed : forall c d, zcomp_eqb c d = true <-> comp_text c = comp_text d.
Proof. exact zcomp_eqb_eq. Qed.
Print Assumptions C100_parsed.

(** Two different calendars that are equal, and one that is not; a literal and a borrowed name that are equal. *)
Section Example.
  Let p l := mk_property (lit "DTSTART") (lit "20240101T000000") l.
  Let a := (lit "TZID", lit "Europe/Berlin").
  Let b := (lit "X-A", lit "1").
  Let ev l : calendar := mk_calendar default_props [CEvent (run_calls [KSummary (lit "a"); KAppend (p l); KMulti (p l)] inner_new)].
  Example C100_example : Forall (fun x => made (cc_inner x)) (c_comps (ev [a; b])) /\ cal_all params_once (ev [a; b]) /\ cal_all params_once (ev [b; a])
    /\ ev [a; b] <> ev [b; a] /\ cal_eqb (ev [a; b]) (ev [b; a]) = true /\ same_cal (ev [a; b]) (ev [b; a])
    /\ cal_eqb (ev [a; b]) (ev [a]) = false /\ cal_all one_order (ev [a]) /\ ~ same_cal (ev [a]) (ev [b])
    /\ zcomp_eqb (mk_zcomp (Static (lit "VEVENT")) [mk_zprop (Owned (lit "A")) (Borrowed (lit "b:c") 1) []] [])
                 (mk_zcomp (Borrowed (lit "VEVENT;X") 6) [mk_zprop (Static (lit "A")) (Owned (lit "b")) []] []) = true.
  Proof.
    assert (M : forall l, Forall (fun x => made (cc_inner x)) (c_comps (ev l))).
    { intros l. constructor; [|constructor]. cbn [cc_inner run_calls fold_left]. do 3 (apply made_call; [|constructor]). apply made_new. }
    assert (Q : forall Q : property -> Prop, forall l, Q (p l) -> Q (prop_new (lit "SUMMARY") (lit "a")) -> Forall Q default_props -> cal_all Q (ev l)).
    { intros Q l Hp Hs Hd. split; [exact Hd|]. constructor; [|constructor]. cbn [cc_inner]. constructor.
      - intros k q. change (i_props _) with [(lit "DTSTART", p l); (lit "SUMMARY", prop_new (lit "SUMMARY") (lit "a"))]. cbn [map_get].
        destruct (str_eqb k _); [intros E; now injection E as <-|]. destruct (str_eqb k _); [intros E; now injection E as <-|easy].
      - intros k q. change (i_multi _) with [(lit "DTSTART", [p l])]. cbn [map_get]. destruct (str_eqb k _); [|easy]. intros E. injection E as <-. now repeat constructor.
      - constructor. }
    assert (D : Forall params_once default_props) by (repeat constructor).
    assert (O : forall l, NoDup (map fst l) -> cal_all params_once (ev l)) by (intros l H; apply Q; [exact H|constructor|exact D]).
    assert (N : NoDup (map fst [a; b]) /\ NoDup (map fst [b; a])).
    { split; (constructor; [|constructor; [easy|constructor]]); intros [E|[]]; vm_compute in E; discriminate E. }
    assert (E : cal_eqb (ev [a; b]) (ev [b; a]) = true) by now vm_compute.
    split; [apply M|]. split; [now apply O|]. split; [now apply O|]. split; [intros E'; apply (f_equal c_comps) in E'; vm_compute in E'; discriminate E'|].
    split; [exact E|]. split; [apply (C100_calendar _ _ (M _) (M _)); [now apply O..|exact E]|]. split; [now vm_compute|].
    split; [apply Q; repeat constructor|]. split; [|now vm_compute].
    intros S. apply (C100_calendar _ _ (M _) (M _)) in S; [vm_compute in S; discriminate S|apply O; repeat constructor; easy..].
  Qed.
End Example.
