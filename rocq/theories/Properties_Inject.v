(** C84: different data have different texts. *)
From Verif Require Import Str Spec Fold Text ValueTypes Property Chrono DateTime Component Alarm Calendar Nom Parser
  SpecBuild SpecDate SpecTree SpecDoc SpecConv SpecRound SpecText SpecExact SpecInject StrFacts BuildProofs TreeProofs ParserProofs DocProofs ConvProofs RoundProofs LfProofs
  UnfoldProofs WrittenProofs RoundChecks ExactProofs InjectProofs Properties_Build Properties_Round Properties_Exact.

(** ** C84 *)
(** Different TEXT values are escaped differently, although unescaping does not always give the value back (C06). *)
Theorem C84_text : forall a b, escape_text a = escape_text b -> a = b.
Proof.
  intros a b E. apply (text_one_way a b (escape_text a)); [apply text_written_escape|]. rewrite E. apply text_written_escape.
Qed.
Print Assumptions C84_text.
(** Different properties are written differently, whatever their TEXT values are. *)
Theorem C84_property_partial : forall {U : Unicode} p q s, line_fine p -> line_fine q -> prop_write p = Ret s -> prop_write q = Ret s -> p = q.
Proof. exact @props_same_text. Qed.
Print Assumptions C84_property_partial.
(** Components with the same text, written at whatever times, have the same kind, the same properties in the same order, and
    sub-components of which the same is true. *)
Theorem C84_component_partial : forall {U : Unicode} e e' c d n n' m m' s, clock_ok e -> clock_ok e' -> comp_fine c -> comp_fine d ->
  cc_write e c n = Ret (s, m) -> cc_write e' d n' = Ret (s, m') ->
  exists t, arranged e (cc_kind c) (cc_inner c) t /\ arranged e' (cc_kind d) (cc_inner d) t.
Proof. exact @comp_same_text. Qed.
Print Assumptions C84_component_partial.
Theorem C84_calendar_partial : forall {U : Unicode} e e' c d s, clock_ok e -> clock_ok e' -> cal_fine c -> cal_fine d ->
  cal_write e c = Ret s -> cal_write e' d = Ret s ->
  c_props c = c_props d
  /\ exists ts, Forall2 (fun x t => arranged e (cc_kind x) (cc_inner x) t) (c_comps c) ts
     /\ Forall2 (fun x t => arranged e' (cc_kind x) (cc_inner x) t) (c_comps d) ts.
Proof. exact @cal_same_text. Qed.
Print Assumptions C84_calendar_partial.
(** If nothing is generated and no name is used both for single properties and for multi-properties, they are the same. *)
Theorem C84_same_component_partial : forall {U : Unicode} M e e' c d n n' m m' s, clock_ok e -> clock_ok e' -> comp_fine c -> comp_fine d ->
  unmistakable M c -> unmistakable M d -> cc_write e c n = Ret (s, m) -> cc_write e' d n' = Ret (s, m') -> c = d.
Proof. exact @comp_determined. Qed.
Print Assumptions C84_same_component_partial.
Theorem C84_same_calendar_partial : forall {U : Unicode} M e e' c d s, clock_ok e -> clock_ok e' -> cal_fine c -> cal_fine d ->
  Forall (unmistakable M) (c_comps c) -> Forall (unmistakable M) (c_comps d) -> cal_write e c = Ret s -> cal_write e' d = Ret s -> c = d.
Proof. exact @cal_determined. Qed.
Print Assumptions C84_same_calendar_partial.

(** Refuted without these conditions.  A double quote in a parameter value: one parameter is written as two are. *)
Theorem C84_quote_refuted : forall {U : Unicode}, exists p q s, prop_write p = Ret s /\ prop_write q = Ret s
  /\ length (p_params p) = 1 /\ length (p_params q) = 2.
Proof.
  intros U. exists (mk_property (lit "X-K") (lit "v") [(lit "A", lit "x:" ++ [DQ] ++ lit ";B=" ++ [DQ] ++ lit "y:")]),
    (mk_property (lit "X-K") (lit "v") [(lit "A", lit "x:"); (lit "B", lit "y:")]).
  eexists. split; [vm_compute; reflexivity|]. split; [vm_compute; reflexivity|]. now split.
Qed.
Print Assumptions C84_quote_refuted.
Definition stamps : list call := [KUid (lit "u"); KAdd (lit "DTSTAMP") (lit "20200101T000000Z")].
(** A CR LF in a value that is not TEXT: one property is written as two are. *)
Theorem C84_break_refuted : forall {U : Unicode} e, exists c d s, cal_write e c = Ret s /\ cal_write e d = Ret s
  /\ length (c_props c) = 1 /\ length (c_props d) = 2.
Proof.
  intros U e. exists (mk_calendar [prop_new (lit "URL") (lit "a" ++ [CR; LF] ++ lit "X-B:c")] []),
    (mk_calendar [prop_new (lit "URL") (lit "a"); prop_new (lit "X-B") (lit "c")] []).
  eexists. split; [vm_compute; reflexivity|]. split; [vm_compute; reflexivity|]. now split.
Qed.
Print Assumptions C84_break_refuted.
(** A multi-property is written as a property; a component made with the name of an event is written as an event. *)
Definition single_x : inner := run_calls (KAdd (lit "X-A") (lit "v") :: stamps) inner_new.
Definition multi_x : inner := run_calls (KMulti (prop_new (lit "X-A") (lit "v")) :: stamps) inner_new.
Theorem C84_refuted : forall {U : Unicode} e, exists c d f s n, cc_write e c 0 = Ret (s, n) /\ cc_write e d 0 = Ret (s, n) /\ cc_write e f 0 = Ret (s, n)
  /\ made (cc_inner c) /\ made (cc_inner d) /\ made (cc_inner f)
  /\ has_stamps (cc_inner c) /\ has_stamps (cc_inner d) /\ has_stamps (cc_inner f)
  /\ cc_inner c <> cc_inner d /\ cc_inner c = cc_inner f /\ c <> f.
Proof.
  intros U e. exists (CEvent single_x), (CEvent multi_x), (COther (lit "VEVENT", single_x)). eexists _, _.
  split; [vm_compute; reflexivity|]. split; [vm_compute; reflexivity|]. split; [vm_compute; reflexivity|].
  assert (forall i, i = single_x \/ i = multi_x -> made i) as M.
  { intros i [->| ->]; unfold single_x, multi_x, stamps, run_calls; cbn [fold_left]; repeat (apply made_call; [|constructor]); apply made_new. }
  assert (forall i, i = single_x \/ i = multi_x -> has_stamps i) as H.
  { intros i [->| ->]; constructor; vm_compute; try discriminate; constructor. }
  cbn [cc_inner]. repeat (split; [now auto|]). discriminate.
Qed.
Print Assumptions C84_refuted.

(** Two events that differ only in a TEXT value, one read back as the other: their texts differ. *)
Section Example84.
  Local Existing Instance some_unicode.
  Definition told (v : str) : cal_component :=
    CEvent (run_calls (KMulti (prop_new (lit "ATTENDEE") (lit "mailto:a@b")) :: KSummary v
      :: KAlarm (run_calls (KAdd (lit "TRIGGER") (lit "-PT5M") :: stamps) inner_new) :: stamps) inner_new).
  Lemma told_fine : forall v, without [LF] v = true -> comp_fine (told v) /\ unmistakable multi_name (told v).
  Proof.
    intros v V.
    assert (H : forall k v, prop_name_okb (lit k) = true -> without [LF] v = true -> line_fine (prop_new (lit k) v)).
    { clear. intros k v K V. split; [split; [now apply prop_name_okb_spec|split; constructor]|]. intros _. pose proof (without_spec _ _ V LF (or_introl eq_refl)) as L.
      cbn [prop_new p_val]. split; [|now apply mark_free_no_lf]. intros (a & b & E). apply L. rewrite E. apply in_or_app. right. right. now left. }
    assert (M : forall k, is_multi_name (lit k) = false -> ~ multi_name (lit k)).
    { intros k K X. apply is_multi_name_spec in X. congruence. }
    split; [split; [now apply name_ok_spec|split]|split; [|split]].
    - cbn [told cc_inner]. unfold run_calls, stamps. cbn [fold_left]. repeat (apply made_call; [|try constructor]); try apply made_new; try constructor.
    - cbn [told cc_inner]. constructor.
      + intros k p G. apply map_get_in in G. vm_compute in G.
        destruct G as [G|[G|[G|[]]]]; injection G as <- <-; [now apply (H "DTSTAMP"%string)|now apply (H "SUMMARY"%string)|now apply (H "UID"%string)].
      + intros k l G. apply map_get_in in G. vm_compute in G. destruct G as [G|[]]. injection G as <- <-.
        constructor; [now apply (H "ATTENDEE"%string)|constructor].
      + constructor; [|constructor]. cbn [fst snd]. split; [now apply name_ok_spec|]. constructor; [|intros k l G; discriminate G|constructor].
        intros k p G. apply map_get_in in G. vm_compute in G.
        destruct G as [G|[G|[G|[]]]]; injection G as <- <-; [now apply (H "DTSTAMP"%string)|now apply (H "TRIGGER"%string)|now apply (H "UID"%string)].
    - constructor; [discriminate|discriminate|]. constructor; [|constructor]. constructor; [discriminate|discriminate|constructor].
    - constructor.
      + intros k p G. apply map_get_in in G. vm_compute in G.
        destruct G as [G|[G|[G|[]]]]; injection G as <- <-; [now apply (M "DTSTAMP"%string)|now apply (M "SUMMARY"%string)|now apply (M "UID"%string)].
      + intros k l G. apply map_get_in in G. vm_compute in G. destruct G as [G|[]]. injection G as <- <-. now apply is_multi_name_spec.
      + constructor; [|constructor]. constructor; [|intros k l G; discriminate G|constructor].
        intros k p G. apply map_get_in in G. vm_compute in G.
        destruct G as [G|[G|[G|[]]]]; injection G as <- <-; [now apply (M "DTSTAMP"%string)|now apply (M "TRIGGER"%string)|now apply (M "UID"%string)].
    - intros o E. discriminate E.
  Qed.
  Example C84_example : exists c d s s' n n', c <> d /\ comp_fine c /\ comp_fine d /\ unmistakable multi_name c /\ unmistakable multi_name d
    /\ cc_write some_env c 0 = Ret (s, n) /\ cc_write some_env d 0 = Ret (s', n') /\ s <> s'
    /\ rmap cc_inner (cc_from_str s) = Ok (cc_inner d).
  Proof.
    exists (told (lit "a\:b")), (told (lit "a:b")). do 4 eexists. split; [intros E; vm_compute in E; discriminate E|].
    destruct (told_fine (lit "a\:b") eq_refl) as [F1 U1], (told_fine (lit "a:b") eq_refl) as [F2 U2].
    do 4 (split; [easy|]). split; [vm_compute; reflexivity|]. split; [vm_compute; reflexivity|]. split; [discriminate|]. vm_compute. reflexivity.
  Qed.
End Example84.
