(** C64, C65: what exactly is read back; documents that are kept. *)
From Verif Require Import Str Spec Fold Text ValueTypes Property Chrono DateTime Component Alarm Calendar Nom Parser
  SpecBuild SpecDate SpecTree SpecDoc SpecConv SpecRound SpecExact StrFacts BuildProofs TreeProofs ParserProofs DocProofs ConvProofs RoundProofs
  UnfoldProofs LfProofs RoundChecks ExactProofs KeepProofs Properties_Build Properties_Round.

Local Existing Instance some_unicode.

(** ** C64 *)
(** A TEXT value is read back as the one text [garbled] gives. *)
Theorem C64_text : forall t w, unescape_text (escape_text t) = w <-> garbled t w.
Proof. exact garbled_eq. Qed.
Print Assumptions C64_text.
(** A property is read back with its name and parameters, the value so changed. *)
Theorem C64_property : forall {U : Unicode} p s, line_fine p -> prop_write p = Ret s ->
  exists q, property_from_str (unfold s) = Ok q /\ reread p q.
Proof. exact @prop_reads. Qed.
Print Assumptions C64_property.
(** A component is read back as the tree that was written says, whatever its texts and however often a name occurs. *)
Theorem C64_component : forall {U : Unicode} e c n s n', clock_ok e -> comp_fine c -> cc_write e c n = Ret (s, n') ->
  exists d, cc_from_str s = Ok d /\ comp_reread e c d.
Proof. exact @comp_reads. Qed.
Print Assumptions C64_component.
(** And so is a calendar. *)
Theorem C64_calendar : forall {U : Unicode} e c s, clock_ok e -> cal_fine c -> cal_write e c = Ret s ->
  exists d, calendar_from_str s = Ok d /\ Forall2 reread (c_props c) (c_props d) /\ Forall2 (comp_reread e) (c_comps c) (c_comps d).
Proof. exact @cal_reads. Qed.
Print Assumptions C64_calendar.

Definition wild_inner : inner :=
  run_calls [KMulti (prop_new (lit "X-FOO") (lit "a")); KMulti (prop_new (lit "X-FOO") (lit "b")); KSummary (lit "C:\new\:x\\N")] inner_new.
Definition wild_cal : calendar := mk_calendar [prop_new (lit "LOCATION") (lit "\n")] [COther (lit "VEVENT", wild_inner)].
Lemma wild_fine : cal_fine wild_cal.
Proof.
  assert (H : forall k v, prop_name_okb (lit k) = true -> without [LF] v = true -> line_fine (prop_new (lit k) v)).
  { intros k v K V. split; [split; [now apply prop_name_okb_spec|split; constructor]|]. intros _. pose proof (without_spec _ _ V LF (or_introl eq_refl)) as L.
    cbn [prop_new p_val]. split; [|now apply mark_free_no_lf]. intros (a & b & E). apply L. rewrite E. apply in_or_app. right. right. now left. }
  split; [constructor; [now apply H|constructor]|]. constructor; [|constructor]. split; [now apply name_ok_spec|]. split.
  - cbn [cc_inner]. repeat (apply made_call; [|constructor]). apply made_new.
  - cbn [cc_inner]. constructor.
    + intros k p G. apply map_get_in in G. vm_compute in G. destruct G as [G|[]]. injection G as <- <-. now apply (H "SUMMARY"%string).
    + intros k l G. apply map_get_in in G. vm_compute in G. destruct G as [G|[]]. injection G as <- <-.
      constructor; [now apply (H "X-FOO"%string)|]. constructor; [now apply (H "X-FOO"%string)|constructor].
    + constructor.
Qed.
Example C64_example : cal_fine wild_cal /\ exists s d i p q r, cal_write some_env wild_cal = Ret s /\ calendar_from_str s = Ok d
  /\ c_comps d = [CEvent i] /\ c_props d = [p] /\ p_val p = [LF]
  /\ map_get (lit "SUMMARY") (i_props i) = Some q /\ p_val q = lit "C:" ++ LF :: lit "ew:x\" ++ [LF]
  /\ map_get (lit "X-FOO") (i_props i) = Some r /\ p_val r = lit "b".
Proof.
  split; [apply wild_fine|]. do 6 eexists. split; [vm_compute; reflexivity|]. split; [vm_compute; reflexivity|]. now vm_compute.
Qed.

(** ** C65 *)
(** Refuted: four backslashes and a colon are read as [\:] (C08), written as [\\:], and that is read as [:]. *)
Theorem C65_refuted : forall {U : Unicode}, exists s d s' d' p q,
  calendar_from_str s = Ok d /\ cal_write some_env d = Ret s' /\ calendar_from_str s' = Ok d'
  /\ d = mk_calendar [p] [] /\ d' = mk_calendar [q] [] /\ p_val p = lit "\:" /\ p_val q = lit ":".
Proof.
  intros U. exists (lit "BEGIN:VCALENDAR" ++ [CR; LF] ++ lit "LOCATION:\\\\:" ++ [CR; LF] ++ lit "END:VCALENDAR" ++ [CR; LF]).
  do 5 eexists. split; [vm_compute; reflexivity|]. split; [vm_compute; reflexivity|]. split; [vm_compute; reflexivity|].
  split; [reflexivity|]. split; [reflexivity|]. now vm_compute.
Qed.
Print Assumptions C65_refuted.
(** A document with escapes as in RFC 5545, however it is folded, cut into lines and spelled, gives a calendar that is written and read
    back without loss: the same one, or the same with DTSTAMP and UID where they were missing. *)
Theorem C65_kept_partial : forall {U : Unicode} y n its s u b, wtree_ok y (W n its) -> wtree_text y (W n its) u -> breaks b ->
  (y = Lf -> ~ has_crlf u) -> n = lit "VCALENDAR" -> unfolds s (b ++ u) -> wtree_tame (W n its) ->
  exists d, calendar_from_str s = Ok d
    /\ forall e s', clock_ok e -> cal_write e d = Ret s' ->
       exists d', calendar_from_str s' = Ok d' /\ c_props d' = c_props d /\ Forall2 (cc_stamped e) (c_comps d) (c_comps d')
         /\ (Forall (fun x => has_stamps (cc_inner x)) (c_comps d) -> d' = d)
         /\ forall e' s'', clock_ok e' -> cal_write e' d' = Ret s'' -> calendar_from_str s'' = Ok d'.
Proof.
  intros U y n its s u b O T B C N F M. destruct (kept y n its s u b O T B C N F M) as (d & E & K). exists d. split; [easy|].
  intros e s' Ce W. destruct (cal_back_ok e d s' Ce K W) as (d' & E' & K' & H & P & S). exists d'. repeat (split; [easy|]).
  split.
  - intros H2. pose proof (cal_fixed e d s' Ce K H2 W) as Q. congruence.
  - intros e' s'' Ce' W'. now apply (cal_fixed e').
Qed.
Print Assumptions C65_kept_partial.

Definition tame_doc : wtree :=
  W (lit "VCALENDAR")
    [inl (LValue (lit "VERSION") [] (lit "2.0"));
     inr (W (lit "VEVENT") [inl (LValue (lit "SUMMARY") [mk_wparam (lit "LANGUAGE") (FPlain (lit "en")); mk_wparam (lit "ALTREP") (FQuoted (lit "cid:x;y"))]
                                   (lit "a\, b\; c\\ d\n"));
                            inl (LBare (lit "X-NOTHING"));
                            inr (W (lit "VALARM") [inl (LValue (lit "TRIGGER") [] (lit "-PT15M"))]);
                            inl (LValue (lit "ATTENDEE") [mk_wparam (lit "RSVP") FNone] (lit "mailto:a@b"))])].
Lemma tame_doc_ok : wtree_ok Lf tame_doc.
Proof.
  assert (L : forall v, without [LF] v = true -> ~ In LF v) by (intros v V; apply (without_spec _ _ V); now left).
  constructor; [now apply name_ok_spec|].
  constructor; [apply ei_l; split; [now apply prop_name_okb_spec|]; split; [constructor|now apply L]|].
  constructor; [apply ei_r|constructor]. constructor; [now apply name_ok_spec|].
  constructor; [apply ei_l; split; [now apply prop_name_okb_spec|]; split; [|now apply L]|].
  { constructor; [|constructor; [|constructor]]; (split; [now apply name_ok_spec|]); cbn [wp_form]; (split; [discriminate|]).
    - repeat split; try (apply (without_spec [SEMI; COLON]); [reflexivity|cbn; auto]). intros [r E]. discriminate E.
    - apply (without_spec [DQ]); [reflexivity|cbn; auto]. }
  constructor; [apply ei_l; split; [now apply prop_name_okb_spec|discriminate]|].
  constructor; [apply ei_r; constructor; [now apply name_ok_spec|]; constructor; [|constructor]; apply ei_l;
    split; [now apply prop_name_okb_spec|]; split; [constructor|now apply L]|].
  constructor; [|constructor]. apply ei_l. split; [now apply prop_name_okb_spec|]. split; [|now apply L].
  constructor; [|constructor]. split; [now apply name_ok_spec|easy].
Qed.
Lemma tame_doc_tame : wtree_tame tame_doc.
Proof.
  assert (L : forall v, without [LF] v = true -> mark_free v) by (intros v V; apply mark_free_no_lf, (without_spec _ _ V); now left).
  assert (ND : forall l, nodupb l = true -> NoDup l) by apply nodupb_spec.
  constructor. constructor; [apply ei_l; split; [constructor|]; split; [constructor|]; split|].
  { intros _. exists (map Plain (lit "2.0")). split; [reflexivity|]. split; [vm_compute; repeat (constructor; [discriminate|]); constructor|].
    intros (a & d & b & E & _). assert (I : In (Escaped BSL) (map Plain (lit "2.0"))) by (rewrite E; apply in_or_app; right; now left).
    apply in_map_iff in I as (x & H & _). discriminate H. }
  { intros H. now apply L. }
  constructor; [|constructor]. apply ei_r. constructor.
  constructor; [apply ei_l; split; [now apply ND|]; split; [|split]|].
  { constructor; [now apply L|]. constructor; [now apply L|constructor]. }
  { intros _. exists (map Plain (lit "a") ++ Escaped COMMA :: map Plain (lit " b") ++ Escaped SEMI :: map Plain (lit " c") ++ Escaped BSL :: map Plain (lit " d") ++ [Escaped 110%N]).
    split; [reflexivity|]. split; [vm_compute; repeat (constructor; [auto 10; discriminate|]); constructor|].
    intros (a & d & b & E & I). vm_compute in E. repeat (destruct a as [|? a]; [try discriminate E; injection E as <- <-; vm_compute in I; intuition discriminate|]; injection E as <- E).
    destruct a; discriminate E. }
  { intros H. now vm_compute in H. }
  constructor; [apply ei_l; exact I|].
  constructor; [apply ei_r; constructor; constructor; [|constructor]; apply ei_l; split; [constructor|]; split; [constructor|]; split|].
  { intros H. now vm_compute in H. }
  { intros _. now apply L. }
  constructor; [|constructor]. apply ei_l. split; [now apply ND|]. split; [constructor; [exact I|constructor]|]. split.
  { intros H. now vm_compute in H. }
  intros _. now apply L.
Qed.
Example C65_example : wtree_ok Lf tame_doc /\ wtree_tame tame_doc
  /\ exists s d s' d', wtree_text Lf tame_doc s /\ calendar_from_str s = Ok d /\ cal_write some_env d = Ret s' /\ calendar_from_str s' = Ok d'
     /\ length (c_comps d) = 1 /\ s <> s'.
Proof.
  split; [apply tame_doc_ok|]. split; [apply tame_doc_tame|]. exists (render Lf tame_doc). do 3 eexists. split; [apply render_text|].
  split; [vm_compute; reflexivity|]. split; [vm_compute; reflexivity|]. split; [vm_compute; reflexivity|]. split; [reflexivity|].
  intros H. discriminate H.
Qed.
