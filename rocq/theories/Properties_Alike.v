(** Which differences between texts reading does not see: C82. *)
From Verif Require Import Str StrFacts Spec Fold ValueTypes Property Chrono DateTime Component Calendar Nom Parser
  SpecBuild SpecDate SpecTree SpecDoc SpecConv SpecAccess SpecAlike ParserProofs DocProofs AlikeProofs Properties_Build Properties_Parse.

(** C82. Two parsed components become equal components exactly if they are alike: the same last property of each name (all in
    order, of multi-valued names), the same last parameter of each name, the same sub-components in order ... *)
Theorem C82_component : forall c d, same_cc (conv_cc c) (conv_cc d) <-> alike c d.
Proof. exact conv_cc_alike. Qed.
Print Assumptions C82_component.
Theorem C82_component_text : forall {U : Unicode} s t x y, cc_from_str s = Ok x -> cc_from_str t = Ok y ->
  (same_cc x y <-> exists c d, read_component (unfold s) = Ok c /\ read_component (unfold t) = Ok d /\ alike c d).
Proof.
  intros U s t x y Hx Hy. unfold cc_from_str in Hx, Hy. destruct (read_component (unfold s)) as [c|e|]; cbn [rmap] in Hx; try easy.
  destruct (read_component (unfold t)) as [d|e|]; cbn [rmap] in Hy; try easy. injection Hx as <-. injection Hy as <-. rewrite conv_cc_alike. split; [eauto|].
  intros (c' & d' & E & E' & A). now injection E as <-; injection E' as <-.
Qed.
Print Assumptions C82_component_text.
(** ... and calendars, whose own properties count all and in order. *)
Theorem C82_calendar : forall c d,
  same_cal (conv_cal c) (conv_cal d) <-> Forall2 alike_prop (pcal_props c) (pcal_props d) /\ Forall2 alike (pcal_comps c) (pcal_comps d).
Proof. exact conv_cal_alike. Qed.
Print Assumptions C82_calendar.
Theorem C82_calendar_text : forall {U : Unicode} s t x y, calendar_from_str s = Ok x -> calendar_from_str t = Ok y ->
  (same_cal x y <-> exists c d, read_calendar (unfold s) = Ok c /\ read_calendar (unfold t) = Ok d
     /\ Forall2 alike_prop (pcal_props c) (pcal_props d) /\ Forall2 alike (pcal_comps c) (pcal_comps d)).
Proof.
  intros U s t x y Hx Hy. unfold calendar_from_str in Hx, Hy. destruct (read_calendar (unfold s)) as [c|e|]; cbn [rmap] in Hx; try easy.
  destruct (read_calendar (unfold t)) as [d|e|]; cbn [rmap] in Hy; try easy. injection Hx as <-. injection Hy as <-. rewrite conv_cal_alike. split; [eauto 10|].
  intros (c' & d' & E & E' & A). now injection E as <-; injection E' as <-.
Qed.
Print Assumptions C82_calendar_text.
(** So documents whose lines of different names are in another order, or in another order with the sub-components, at any
    depth, are read as equal components; a calendar has the same properties, in another order if the text has, and equal components. *)
Theorem C82_shuffled : forall {U : Unicode} y t u s s', wtree_ok y t -> shuffled t u -> wtree_text y t s -> wtree_text y u s' ->
  (y = Lf -> ~ has_crlf s /\ ~ has_crlf s') -> exists c d,
  read_component s = Ok c /\ read_component s' = Ok d /\ same_cc (conv_cc c) (conv_cc d)
  /\ (pc_name c = lit "VCALENDAR" -> exists p q, read_calendar s = Ok p /\ read_calendar s' = Ok q
      /\ Permutation (c_props (conv_cal p)) (c_props (conv_cal q)) /\ Forall2 same_cc (c_comps (conv_cal p)) (c_comps (conv_cal q))).
Proof.
  intros U y t u s s' O S T T' N.
  destruct (document_read y t s [] O T) as (_ & _ & R & C); [constructor|intros E; now apply N|].
  destruct (document_read y u s' [] (proj1 (shuffled_ok y t u S) O) T') as (_ & _ & R' & C'); [constructor|intros E; now apply N|].
  pose proof (shuffled_alike t u S) as A. exists (wtree_read t), (wtree_read u). split; [easy|]. split; [easy|]. split; [now apply conv_cc_alike|].
  intros E. assert (E' : pc_name (wtree_read u) = lit "VCALENDAR") by (rewrite <- E; now inversion A).
  specialize (C E). specialize (C' E'). eexists. eexists. split; [exact C|]. split; [exact C'|]. unfold conv_cal. cbn [c_props c_comps pcal_props pcal_comps]. split.
  - apply Permutation_map. now apply shuffled_props.
  - apply forall2_map. rewrite (forall2_iff _ _ _ alike); [now inversion A|]. intros. apply conv_cc_alike.
Qed.
Print Assumptions C82_shuffled.
(** Equality is an equivalence. *)
Theorem C82_equivalence : (forall i, same_inner i i) /\ (forall i j, same_inner i j -> same_inner j i)
  /\ (forall i j k, same_inner i j -> same_inner j k -> same_inner i k).
Proof. split; [exact same_inner_refl|]. split; [exact same_inner_sym|exact same_inner_trans]. Qed.
Print Assumptions C82_equivalence.

Section Example.
  Local Existing Instance some_unicode.
  Let ln (k v : string) : wline + wtree := inl (LValue (lit k) [] (lit v)).
  Definition order1 : wtree := W (lit "VEVENT") [ln "SUMMARY" "a"; ln "ATTENDEE" "x"; ln "UID" "1"; ln "ATTENDEE" "y"; inr (W (lit "VALARM") [ln "A" "1"; ln "B" "2"])].
  Definition order2 : wtree := W (lit "VEVENT") [ln "ATTENDEE" "x"; inr (W (lit "VALARM") [ln "B" "2"; ln "A" "1"]); ln "ATTENDEE" "y"; ln "SUMMARY" "a"; ln "UID" "1"].
  Definition order3 : wtree := W (lit "VEVENT") [ln "ATTENDEE" "y"; inr (W (lit "VALARM") [ln "B" "2"; ln "A" "1"]); ln "ATTENDEE" "x"; ln "SUMMARY" "a"; ln "UID" "1"].
  Example C82_example : wtree_ok CrLf order1 /\ shuffled order1 order2 /\ ~ alike (wtree_read order1) (wtree_read order3)
    /\ alike (mk_pcomp (lit "VEVENT") [mk_pprop (lit "UID") (lit "1") []; mk_pprop (lit "UID") (lit "2") []] [])
             (mk_pcomp (lit "VEVENT") [mk_pprop (lit "UID") (lit "2") []] [])
    /\ alike_prop (mk_pprop (lit "A") (lit "1") [mk_pparam (lit "X") None; mk_pparam (lit "Y") (Some (lit "1")); mk_pparam (lit "X") (Some (lit "2"))])
                  (mk_pprop (lit "A") (lit "1") [mk_pparam (lit "X") (Some (lit "2")); mk_pparam (lit "Y") (Some (lit "1"))]).
  Proof.
    split; [apply wtree_okb_spec; now vm_compute|]. split; [|split; [|split]].
    - unfold order1, order2.
      apply (sh_trans _ (W (lit "VEVENT") [ln "SUMMARY" "a"; ln "ATTENDEE" "x"; ln "UID" "1"; ln "ATTENDEE" "y"; inr (W (lit "VALARM") [ln "B" "2"; ln "A" "1"])])).
      { apply (sh_sub _ [_; _; _; _] _ _ []). apply (sh_swap _ [] _ _ []). discriminate. }
      eapply sh_trans; [apply (sh_swap _ []); cbn; discriminate|]. cbn [app].
      eapply sh_trans; [apply (sh_swap _ [_; _] _ _ [_]); cbn; discriminate|]. cbn [app].
      eapply sh_trans; [apply (sh_swap _ [_] _ _ [_; _]); cbn; discriminate|]. cbn [app].
      eapply sh_trans; [apply (sh_swap _ [_; _; _] _ _ []); exact I|]. cbn [app].
      eapply sh_trans; [apply (sh_swap _ [_; _] _ _ [_]); exact I|]. cbn [app].
      eapply sh_trans; [apply (sh_swap _ [_] _ _ [_; _]); exact I|]. cbn [app].
      apply sh_refl.
    - intros A. apply conv_cc_alike in A. cbn in A. inversion A as [? ? _ H _]; subst. specialize (H (lit "ATTENDEE")). vm_compute in H.
      inversion H as [|? ? F]; subst. inversion F as [|? ? ? ? (_ & V & _) _]; subst. discriminate V.
    - apply conv_cc_alike. vm_compute. apply same_inner_refl.
    - apply conv_prop_alike. vm_compute. split; [easy|]. split; [easy|]. apply Permutation_refl || apply perm_swap.
  Qed.
End Example.
