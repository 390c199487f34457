(** C11-C13, C15, C32, C35, C36, C41-C44: the round trip through text, conversion of parsed components. *)
From Verif Require Import Str Spec Fold ValueTypes Property Chrono DateTime Component Alarm Calendar Nom Parser
  SpecBuild SpecDate SpecTree SpecDoc SpecConv SpecRound StrFacts BuildProofs TreeProofs ParserProofs DocProofs ConvProofs RoundProofs
  UnfoldProofs LfProofs RoundChecks Properties_Build.

Local Existing Instance some_unicode.

(** ** C11 *)
(** Refuted: a TEXT property is changed if its value contains a backslash before [n], [N] or [:]. *)
Theorem C11_refuted : forall {U : Unicode}, exists p s, head_ok p /\ is_text p /\ p_params p = []
  /\ prop_write p = Ret s /\ property_from_str (unfold s) <> Ok p.
Proof.
  intros U. exists (prop_new (lit "LOCATION") (lit "C:\new")). eexists.
  split; [split; [now apply prop_name_okb_spec|split; constructor]|]. do 3 (split; [reflexivity|]).
  intros H. apply (f_equal (fun r => match r with Ok q => length (p_val q) | _ => 0 end)) in H. now vm_compute in H.
Qed.
Print Assumptions C11_refuted.
(** All other properties are read back. *)
Theorem C11_round_trip_partial : forall {U : Unicode} p s, prop_ok p -> prop_write p = Ret s ->
  property_from_str (unfold s) = Ok p.
Proof. exact @prop_round. Qed.
Print Assumptions C11_round_trip_partial.
(** For TEXT properties this is exact. *)
Theorem C11_text_partial : forall {U : Unicode} p s, head_ok p -> is_text p -> prop_write p = Ret s ->
  (property_from_str (unfold s) = Ok p <-> ~ confused (p_val p)).
Proof. exact @text_round. Qed.
Print Assumptions C11_text_partial.

Definition some_prop : property :=
  mk_property (lit "X-NOTE") (lit "a, b; c\d" ++ LF :: lit "e : f" ++ repeat 233%N 60)
    [(lit "VALUE", lit "TEXT"); (lit "ALTREP", lit "cid:x;y,z"); (lit "X-P", lit "plain")].
Example C11_example : prop_ok some_prop /\ is_text some_prop /\ exists s, prop_write some_prop = Ret s /\ length s > 120
  /\ property_from_str (unfold s) = Ok some_prop.
Proof.
  split; [now apply prop_okb_spec|]. split; [now vm_compute|]. eexists. split; [vm_compute; reflexivity|].
  split; [vm_compute; repeat constructor|]. now vm_compute.
Qed.

(** ** C12 *)
(** Refuted: a line feed in a value that is not TEXT is printed as it is. *)
Theorem C12_refuted : forall {U : Unicode}, exists p s, head_ok p /\ prop_write p = Ret s
  /\ unfold s = lit "URL:a" ++ [LF] ++ lit "ATTENDEE:b" ++ [CR; LF].
Proof.
  intros U. exists (prop_new (lit "URL") (lit "a" ++ [LF] ++ lit "ATTENDEE:b")). eexists. split; [|split; reflexivity].
  split; [now apply prop_name_okb_spec|]. split; constructor.
Qed.
Print Assumptions C12_refuted.
(** Without line feeds, other than in TEXT values, there is one line break. *)
Theorem C12_one_line_partial : forall {U : Unicode} p s, ~ In LF (p_key p) ->
  Forall (fun q => ~ In LF (fst q) /\ ~ In LF (snd q)) (p_params p) -> (~ is_text p -> ~ In LF (p_val p)) -> prop_write p = Ret s ->
  exists l, unfold s = l ++ [CR; LF] /\ ~ In LF l /\ (exists r, l = p_key p ++ r)
    /\ exists a, l = a ++ COLON :: value_text p.
Proof.
  intros U p s K P V W. destruct (printed_line p s K P V W) as [E N].
  exists (p_key p ++ params_text (p_params p) ++ COLON :: value_text p). split; [rewrite E; now rewrite <- !app_assoc|]. split; [easy|].
  split; [eauto|]. exists (p_key p ++ params_text (p_params p)). now rewrite <- app_assoc.
Qed.
Print Assumptions C12_one_line_partial.

Example C12_example : (~ In LF (p_key some_prop)) /\ Forall (fun q => ~ In LF (fst q) /\ ~ In LF (snd q)) (p_params some_prop)
  /\ In LF (p_val some_prop) /\ is_text some_prop.
Proof.
  split; [intros I; vm_compute in I; intuition discriminate|]. split.
  - repeat (constructor; [split; intros I; vm_compute in I; intuition discriminate|]). constructor.
  - split; [vm_compute; auto 15|now vm_compute].
Qed.

(** ** C13 *)
(** Refuted: a double quote in a parameter value ends it. *)
Theorem C13_refuted : forall {U : Unicode}, exists p s q v, p_params p = [(lit "CN", lit "a"":b")] /\ prop_write p = Ret s
  /\ property_from_str (unfold s) = Ok q /\ p_params q = [(lit "CN", v)] /\ v = lit "a" /\ p_val q <> p_val p.
Proof.
  intros U. exists (mk_property (lit "ATTENDEE") (lit "mailto:x") [(lit "CN", lit "a"":b")]).
  eexists. eexists. eexists. split; [reflexivity|]. split; [reflexivity|]. split; [reflexivity|]. split; [reflexivity|]. split; [reflexivity|].
  intros H. apply (f_equal (@length _)) in H. now vm_compute in H.
Qed.
Print Assumptions C13_refuted.
(** All parameters are read back, whatever they contain except a double quote, and in any number and order. *)
Theorem C13_params_partial : forall {U : Unicode} p s, head_ok p -> mark_free (value_text p) -> ~ has_crlf (value_text p) ->
  prop_write p = Ret s -> exists q, property_from_str (unfold s) = Ok q /\ p_key q = p_key p /\ p_params q = p_params p.
Proof. exact @params_round. Qed.
Print Assumptions C13_params_partial.

Example C13_example : head_ok some_prop /\ mark_free (value_text some_prop) /\ ~ has_crlf (value_text some_prop).
Proof.
  assert (O : prop_ok some_prop) by now apply prop_okb_spec. split; [apply O|]. apply value_mark_free, O.
Qed.

(** ** C35 *)
(** Refuted: besides the values of C11, a property that is repeated with [append_multi_property] is read back once
    unless its name is one of thirteen; RELATED-TO, REQUEST-STATUS and X- names are lost. *)
Theorem C35_refuted : forall {U : Unicode}, exists c s d i p q, c_comps c = [CEvent i] /\ made i
  /\ map_get (lit "X-FOO") (i_multi i) = Some [p; q] /\ prop_ok p /\ prop_ok q
  /\ cal_write some_env c = Ret s /\ calendar_from_str s = Ok d
  /\ forall j, c_comps d = [CEvent j] -> map_get (lit "X-FOO") (i_multi j) = None
     /\ map_get (lit "X-FOO") (i_props j) = Some q.
Proof.
  intros U. set (p := prop_new (lit "X-FOO") (lit "a")). set (q := prop_new (lit "X-FOO") (lit "b")).
  set (i := run_calls [KMulti p; KMulti q] inner_new). exists (cal_from_one (CEvent i)). eexists. eexists. exists i, p, q.
  split; [reflexivity|]. split; [repeat (apply made_call; [|constructor]); apply made_new|]. split; [reflexivity|].
  split; [now apply prop_okb_spec|]. split; [now apply prop_okb_spec|]. split; [vm_compute; reflexivity|].
  split; [vm_compute; reflexivity|]. intros j E. injection E as <-. now vm_compute.
Qed.
Print Assumptions C35_refuted.
(** Calendars with readable properties are read back, with the added DTSTAMP and UID. *)
Theorem C35_round_trip_partial : forall {U : Unicode} e c s, clock_ok e -> cal_ok c -> cal_write e c = Ret s ->
  exists d, calendar_from_str s = Ok d /\ c_props d = c_props c /\ Forall2 (cc_stamped e) (c_comps c) (c_comps d).
Proof.
  intros U e c s C O W. destruct (cal_round e c s C O W) as (d & E & P & F & _). eauto.
Qed.
Print Assumptions C35_round_trip_partial.
(** If nothing needs to be added, the same calendar. *)
Theorem C35_same_partial : forall {U : Unicode} e c s, clock_ok e -> cal_ok c ->
  Forall (fun x => has_stamps (cc_inner x)) (c_comps c) -> cal_write e c = Ret s -> calendar_from_str s = Ok c.
Proof. exact @cal_fixed. Qed.
Print Assumptions C35_same_partial.

Definition some_cal : calendar :=
  mk_calendar (c_props (cal_name cal_new (lit "a, b")))
    [CEvent (run_calls some_calls inner_new); CTodo (run_calls [KUid (lit "u"); KAppend some_prop] inner_new);
     COther (lit "X-THING", run_calls [KSummary (lit "s")] inner_new)].
Lemma some_cal_made : Forall (fun x => made (cc_inner x)) (c_comps some_cal).
Proof.
  constructor; [apply some_calls_made|]. constructor; [|constructor; [|constructor]]; cbn [cc_inner snd];
    repeat (apply made_call; [|constructor]); apply made_new.
Qed.
Lemma some_cal_ok : cal_ok some_cal.
Proof. apply cal_ok_check; [now vm_compute|now vm_compute|apply some_cal_made]. Qed.
Example C35_example : cal_ok some_cal /\ exists s d, cal_write some_env some_cal = Ret s /\ calendar_from_str s = Ok d
  /\ length s > 500 /\ length (c_comps d) = 3.
Proof.
  split; [apply some_cal_ok|]. eexists. eexists. split; [vm_compute; reflexivity|]. split; [vm_compute; reflexivity|].
  split; [vm_compute; repeat constructor|reflexivity].
Qed.

(** ** C36 *)
(** Refuted: with a value as in C11 the text changes. *)
Theorem C36_refuted : forall {U : Unicode}, exists c s d t, Forall (fun x => has_stamps (cc_inner x)) (c_comps c)
  /\ cal_write some_env c = Ret s /\ calendar_from_str s = Ok d /\ cal_write some_env d = Ret t /\ s <> t.
Proof.
  intros U. exists (cal_append_property cal_empty (prop_new (lit "LOCATION") (lit "C:\new"))). eexists. eexists. eexists.
  split; [constructor|]. split; [vm_compute; reflexivity|]. split; [vm_compute; reflexivity|]. split; [vm_compute; reflexivity|].
  intros H. discriminate H.
Qed.
Print Assumptions C36_refuted.
Theorem C36_fixed_point_partial : forall {U : Unicode} e e' c s, clock_ok e -> clock_ok e' -> cal_ok c ->
  Forall (fun x => has_stamps (cc_inner x)) (c_comps c) -> cal_write e c = Ret s ->
  exists d, calendar_from_str s = Ok d /\ cal_write e' d = Ret s.
Proof.
  intros U e e' c s C C' O H W. exists c. split; [now apply (cal_fixed e)|]. now rewrite (cal_write_same e' e).
Qed.
Print Assumptions C36_fixed_point_partial.
(** Without the condition on DTSTAMP and UID, from the second text on. *)
Theorem C36_second_round_partial : forall {U : Unicode} e c s, clock_ok e -> cal_ok c -> cal_write e c = Ret s ->
  exists d, calendar_from_str s = Ok d
    /\ forall e' s', clock_ok e' -> cal_write e' d = Ret s' ->
         calendar_from_str s' = Ok d /\ forall e'', clock_ok e'' -> cal_write e'' d = Ret s'.
Proof. exact @cal_twice. Qed.
Print Assumptions C36_second_round_partial.

Example C36_example : exists s d t, cal_write some_env some_cal = Ret s /\ calendar_from_str s = Ok d
  /\ cal_write some_env d = Ret t /\ calendar_from_str t = Ok d /\ s <> t.
Proof.
  eexists. eexists. eexists. split; [vm_compute; reflexivity|]. split; [vm_compute; reflexivity|]. split; [vm_compute; reflexivity|].
  split; [vm_compute; reflexivity|]. intros H. discriminate H.
Qed.

(** ** C15 *)
(** A serialized calendar without CR and without LF (other than in TEXT values) may as well have LF line breaks. *)
Theorem C15_lf_partial : forall {U : Unicode} e c s s', clock_ok e -> cal_ok c -> cal_all breakless c -> cal_write e c = Ret s ->
  to_lf s s' -> calendar_from_str s' = calendar_from_str s /\ exists d, calendar_from_str s = Ok d.
Proof. exact @cal_lf. Qed.
Print Assumptions C15_lf_partial.
(** Every document reads the same in both styles. *)
Theorem C15_styles_partial : forall {U : Unicode} t s s', wtree_ok CrLf t -> wtree_ok Lf t -> wtree_text CrLf t s -> wtree_text Lf t s' ->
  ~ has_crlf s' -> read_components s' = read_components s /\ read_calendar_simple s' = read_calendar_simple s
    /\ read_component s' = read_component s /\ (pc_name (wtree_read t) = lit "VCALENDAR" -> read_calendar s' = read_calendar s).
Proof.
  intros U t s s' O O' T T' N.
  destruct (document_read CrLf t s [] O T) as (A1 & A2 & A3 & A4); [constructor|discriminate|].
  destruct (document_read Lf t s' [] O' T') as (B1 & B2 & B3 & B4); [constructor|easy|]. cbn [app] in *.
  rewrite A1, A2, A3, B1, B2, B3. repeat apply conj; try easy. intros K. now rewrite A4, B4.
Qed.
Print Assumptions C15_styles_partial.
(** Refuted: if the breaks are mixed, the lines that end in LF are taken into the next line that ends in CR LF. *)
Theorem C15_mixed_refuted : forall {U : Unicode}, exists d p,
  calendar_from_str (lit "BEGIN:VCALENDAR" ++ [LF] ++ lit "VERSION:2.0" ++ [LF] ++ lit "NAME:x" ++ [CR; LF] ++ lit "END:VCALENDAR" ++ [LF])
  = Ok d /\ c_props d = [p] /\ p_key p = lit "VERSION" /\ p_val p = lit "2.0" ++ [LF] ++ lit "NAME:x".
Proof. intros U. eexists. eexists. split; [vm_compute; reflexivity|]. now vm_compute. Qed.
Print Assumptions C15_mixed_refuted.

Example C15_example : cal_ok some_cal /\ cal_all breakless some_cal
  /\ to_lf (lit "a" ++ [CR; LF] ++ lit "b" ++ [CR; 99%N; LF; CR; LF]) (lit "a" ++ [LF] ++ lit "b" ++ [CR; 99%N; LF; LF]).
Proof.
  split; [apply some_cal_ok|]. split; [apply (cal_all_check breaklessb); [apply breaklessb_spec|now vm_compute|now vm_compute]|].
  cbn [lit app]. repeat (apply tl_crlf || (apply tl_keep; [intros [r E]; discriminate E|])). apply tl_nil.
Qed.

(** ** C32 *)
(** A parsed calendar has the properties in the text, in order, and no others. *)
Theorem C32_parsed : forall {U : Unicode} s d, calendar_from_str s = Ok d -> exists c, read_calendar (unfold s) = Ok c
  /\ Forall2 says (pcal_props c) (c_props d).
Proof. intros U s d H. destruct (parsed_props s d H) as (c & E & P & _). eauto. Qed.
Print Assumptions C32_parsed.
Theorem C32_document : forall {U : Unicode} y n its s u b, wtree_ok y (W n its) -> wtree_text y (W n its) u -> breaks b ->
  (y = Lf -> ~ has_crlf u) -> n = lit "VCALENDAR" -> unfolds s (b ++ u) ->
  exists d, calendar_from_str s = Ok d
    /\ Forall2 says (flat_map (fun x => match x with inl l => [wline_read l] | inr _ => [] end) its) (c_props d).
Proof.
  intros U y n its s u b O T B C -> F. apply unfold_eq in F.
  destruct (document_read y (W (lit "VCALENDAR") its) u b O T B C) as (_ & _ & _ & D). specialize (D eq_refl).
  unfold calendar_from_str. rewrite F, D. cbn [rmap]. eexists. split; [reflexivity|].
  cbn [wtree_read pc_props conv_cal c_props pcal_props]. induction (flat_map _ its) as [|p l IH]; constructor; [apply conv_prop_says|easy].
Qed.
Print Assumptions C32_document.

Example C32_parsed_example : exists d, calendar_from_str (lit "BEGIN:VCALENDAR" ++ [LF] ++ lit "X:1" ++ [LF] ++ lit "X:2" ++ [LF] ++ lit "END:VCALENDAR" ++ [LF])
  = Ok d /\ c_props d = [prop_new (lit "X") (lit "1"); prop_new (lit "X") (lit "2")].
Proof. eexists. split; [vm_compute; reflexivity|]. now vm_compute. Qed.

(** ** C41 *)
(** Refuted: of two RELATED-TO (or REQUEST-STATUS, or TZNAME) lines, one is lost. *)
Theorem C41_refuted : forall k, In k ["RELATED-TO"; "REQUEST-STATUS"; "TZNAME"; "DESCRIPTION"]%string -> In k rfc_repeatable
  /\ forall n v w, exists p, conv_inner (mk_pcomp n [mk_pprop (lit k) v []; mk_pprop (lit k) w []] [])
     = mk_inner [(lit k, p)] [] [] /\ p_val p = w.
Proof.
  intros k H. split; [cbn in H |- *; intuition|]. intros n v w. exists (mk_property (lit k) w []).
  destruct H as [<-|[<-|[<-|[<-|[]]]]]; split; reflexivity.
Qed.
Print Assumptions C41_refuted.
(** The rest: every name has all its values, in order, if it is one of the thirteen, else its last value; sub-components
    stay in order. *)
Theorem C41_kept_partial : forall c, keeps c (conv_inner c).
Proof. exact conv_inner_keeps. Qed.
Print Assumptions C41_kept_partial.
(** The multi-valued names that RFC 5545 knows. *)
Theorem C41_names_partial : forall k, In k rfc_repeatable -> multi_name (lit k) \/ In k ["RELATED-TO"; "REQUEST-STATUS"; "TZNAME"; "DESCRIPTION"]%string.
Proof.
  intros k H. cbn [rfc_repeatable In] in H. repeat (destruct H as [<-|H]; [first [left; eexists; split; [|reflexivity]; cbn; tauto | right; cbn; tauto]|]).
  destruct H.
Qed.
Print Assumptions C41_names_partial.

Example C41_example :
  let a n := mk_pprop (lit "ATTENDEE") n [] in
  let c := mk_pcomp (lit "VEVENT") [a (lit "x"); mk_pprop (lit "SUMMARY") (lit "s") []; a (lit "y")] [mk_pcomp (lit "VALARM") [] []; mk_pcomp (lit "B") [] []] in
  map_get (lit "ATTENDEE") (i_multi (conv_inner c)) = Some [prop_new (lit "ATTENDEE") (lit "x"); prop_new (lit "ATTENDEE") (lit "y")]
  /\ map fst (i_comps (conv_inner c)) = [lit "VALARM"; lit "B"].
Proof. split; reflexivity. Qed.

(** ** C42 *)
(** Refuted: names that start with END or BEGIN are printed and never read. *)
Theorem C42_refuted : forall {U : Unicode} w k, In w ["END"; "BEGIN"]%string -> plain_name k -> has_prefix (lit w) k ->
  exists s e, prop_write (mk_property k [] []) = Ret s /\ property_from_str (unfold s) = Err e.
Proof.
  intros U w k Iw K P. destruct (plain_total k K) as [s W]. destruct (reserved_name w k [] [] s) as [x E]; try easy; [|now exists s, x].
  now apply ascii_name in K.
Qed.
Print Assumptions C42_refuted.
(** All others, apart from [end] and [begin] in any case, are read back. *)
Theorem C42_names_partial : forall {U : Unicode} k, plain_name k -> ~ has_prefix (lit "END") k -> ~ has_prefix (lit "BEGIN") k ->
  map lower_ascii k <> lit "end" -> map lower_ascii k <> lit "begin" ->
  forall v ps s, let p := mk_property k v ps in Forall param_ok ps -> NoDup (map fst ps) -> val_ok p ->
  prop_write p = Ret s -> property_from_str (unfold s) = Ok p.
Proof.
  intros U k K E1 E2 E3 E4 v ps s p P N V W. apply prop_round; [|easy]. split; [|easy]. split; [|now split]. apply ascii_name in K. now repeat split.
Qed.
Print Assumptions C42_names_partial.

Example C42_example : plain_name (lit "ENDURANCE") /\ has_prefix (lit "END") (lit "ENDURANCE") /\ plain_name (lit "X-END-1")
  /\ ~ has_prefix (lit "END") (lit "X-END-1").
Proof.
  assert (D : forall k, forallb (fun c => (48 <=? c) && (c <=? 57) || (65 <=? c) && (c <=? 90) || (97 <=? c) && (c <=? 122) || (c =? 45))%N k = true -> plain_name k).
  { intros k H. rewrite forallb_forall in H. apply Forall_forall. intros c I. apply H in I.
    rewrite !orb_true_iff, !andb_true_iff, !N.leb_le, N.eqb_eq in I. tauto. }
  repeat split; try (apply D; now vm_compute).
  - exists (lit "URANCE"). reflexivity.
  - intros [r H]. discriminate H.
Qed.

(** ** C43 *)
Theorem C43_kinds : forall c,
  (pc_name c = lit "VEVENT" -> exists i, conv_cc c = CEvent i /\ keeps c i)
  /\ (pc_name c = lit "VTODO" -> exists i, conv_cc c = CTodo i /\ keeps c i)
  /\ (pc_name c = lit "VVENUE" -> exists i, conv_cc c = CVenue i /\ keeps c i)
  /\ (pc_name c <> lit "VEVENT" -> pc_name c <> lit "VTODO" -> pc_name c <> lit "VVENUE" ->
      exists i, conv_cc c = COther (pc_name c, i) /\ keeps c i).
Proof. exact conv_cc_typed. Qed.
Print Assumptions C43_kinds.
Theorem C43_printed : forall (U : Unicode) e c n s n', clock_ok e -> cc_write e (conv_cc c) n = Ret (s, n') ->
  (exists m, s = lit "BEGIN:" ++ pc_name c ++ [CR; LF] ++ m ++ lit "END:" ++ pc_name c ++ [CR; LF])
  /\ exists t i, arranged e (pc_name c) i t /\ keeps c i /\ text_of t s.
Proof.
  intros U e c n s n' C W. destruct (conv_cc_text U e c n s n' C W) as (t & A & T). split.
  - inversion A; subst. inversion T as [? ? ts ? ss F1 F2]; subst. exists (concat ts ++ concat ss). now rewrite <- !app_assoc.
  - exists t, (conv_inner c). split; [easy|]. split; [apply conv_inner_keeps|easy].
Qed.
Print Assumptions C43_printed.

Example C43_example : exists i j, cc_from_str (lit "BEGIN:VTODO" ++ [LF] ++ lit "END:VTODO" ++ [LF]) = Ok (CTodo i)
  /\ cc_from_str (lit "BEGIN:VTIMEZONE" ++ [LF] ++ lit "END:VTIMEZONE" ++ [LF]) = Ok (COther (lit "VTIMEZONE", j)).
Proof. eexists. eexists. split; vm_compute; reflexivity. Qed.

(** ** C44 *)
(** Refuted: escapes are decoded and not encoded again; quotes are removed and not put back. *)
Theorem C44_escape_refuted : forall {U : Unicode}, exists i c s d, read_calendar i = Ok c /\ pcal_write some_env c = Ret s
  /\ read_calendar (unfold s) = Ok d /\ c <> d /\ i = lit "BEGIN:VCALENDAR" ++ [CR; LF] ++ lit "LOCATION:a\\\\b" ++ [CR; LF] ++ lit "END:VCALENDAR" ++ [CR; LF].
Proof.
  intros U. eexists. eexists. eexists. eexists. repeat apply conj; [| | | |reflexivity].
  - vm_compute. reflexivity.
  - vm_compute. reflexivity.
  - vm_compute. reflexivity.
  - intros H. discriminate H.
Qed.
Print Assumptions C44_escape_refuted.
Theorem C44_quote_refuted : forall {U : Unicode}, exists i c s d, read_calendar i = Ok c /\ pcal_write some_env c = Ret s
  /\ read_calendar (unfold s) = Ok d /\ c <> d
  /\ i = lit "BEGIN:VCALENDAR" ++ [CR; LF] ++ lit "NAME;ALTREP=""cid:x"":a" ++ [CR; LF] ++ lit "END:VCALENDAR" ++ [CR; LF].
Proof.
  intros U. eexists. eexists. eexists. eexists. repeat apply conj; [| | | |reflexivity].
  - vm_compute. reflexivity.
  - vm_compute. reflexivity.
  - vm_compute. reflexivity.
  - intros H. discriminate H.
Qed.
Print Assumptions C44_quote_refuted.
(** Calendars without such values and parameters are read back. *)
Theorem C44_faithful_partial : forall {U : Unicode} e c s, Forall pr_ok (pcal_props c) -> Forall pc_ok (pcal_comps c) ->
  pcal_write e c = Ret s -> read_calendar (unfold s) = Ok c.
Proof. exact @pcal_round. Qed.
Print Assumptions C44_faithful_partial.

Example C44_example :
  let c := mk_pcal [mk_pprop (lit "NAME") (lit "a") [mk_pparam (lit "P") (Some (lit "v")); mk_pparam (lit "Q") None]]
                   [mk_pcomp (lit "VEVENT") [mk_pprop (lit "SUMMARY") (lit "a, b; c") []] [mk_pcomp (lit "VALARM") [] []]] in
  Forall pr_ok (pcal_props c) /\ Forall pc_ok (pcal_comps c)
  /\ exists s, pcal_write some_env c = Ret s /\ read_calendar (unfold s) = Ok c.
Proof.
  cbn zeta. cbn [pcal_props pcal_comps].
  assert (M : forall v, without [LF; CR; SEMI; COLON; BSL] v = true -> mark_free v /\ ~ has_crlf v /\ ~ In SEMI v /\ ~ In COLON v /\ ~ escapes v).
  { intros v H. pose proof (without_spec _ _ H) as W. split; [apply UnfoldProofs.mark_free_no_lf, W; cbn; auto|].
    split; [intros (a & b & ->); apply (W CR); [cbn; auto|apply in_or_app; right; now left]|].
    split; [apply W; cbn; auto|]. split; [apply W; cbn; auto|]. intros (a & d & b & -> & _). apply (W BSL); [cbn; auto 10|]. apply in_or_app. right. now left. }
  split; [|split].
  - constructor; [|constructor]. split; [now apply prop_name_okb_spec|]. split.
    + constructor; [|constructor; [|constructor]]; (split; [now apply name_ok_spec|]); [|easy].
      cbn [pp_val]. split; [discriminate|]. destruct (M (lit "v") eq_refl) as (M1 & _ & M2 & M3 & _). repeat (split; [easy|]). intros [r E]. discriminate E.
    + destruct (M (lit "a") eq_refl) as (M1 & M2 & _ & _ & M3). repeat (split; [easy|]). easy.
  - constructor; [|constructor]. constructor; [now apply name_ok_spec|discriminate| |].
    + constructor; [|constructor]. split; [now apply prop_name_okb_spec|]. split; [constructor|]. cbn [pr_val].
      assert (W : without [LF; CR; BSL] (lit "a, b; c") = true) by reflexivity. pose proof (without_spec _ _ W) as I.
      split; [apply UnfoldProofs.mark_free_no_lf, I; cbn; auto|].
      split; [intros (a & b & E); apply (I CR); [cbn; auto|rewrite E; apply in_or_app; right; now left]|].
      intros _ (a & d & b & E & _). apply (I BSL); [cbn; auto|]. rewrite E. apply in_or_app. right. now left.
    + constructor; [|constructor]. constructor; [now apply name_ok_spec|discriminate|constructor|constructor].
  - eexists. split; [vm_compute; reflexivity|]. now vm_compute.
Qed.
