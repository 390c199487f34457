(** C91: exactly which parsed calendars come back when their own text is read. *)
From Verif Require Import Str StrFacts Spec Fold UnfoldProofs ValueTypes Property Chrono DateTime Component Alarm Calendar Nom Parser
  SpecBuild SpecDate SpecTree SpecDoc SpecConv SpecRound SpecText SpecBack SpecFold SpecReprint
  ParserProofs RoundProofs RoundChecks ShapeProofs ReprintProofs Properties_Build Properties_Round.

(** One property, without any restriction: the line is found again, its parts are such as the parser takes them, and no
    parameter value begins like a quoted string. *)
Theorem C91_property : forall {U : Unicode} p s ts, pprop_write p = Ret s -> Forall2 pparam_written (pr_params p) ts ->
  (read_property (unfold s) = Ok p <->
   unfold s = Parser.pr_name p ++ concat ts ++ COLON :: pr_val p ++ [CR; LF] /\ pr_back p /\ params_open (pr_params p) ts (COLON :: pr_val p)).
Proof. exact @property_back. Qed.
Print Assumptions C91_property.

(** What every calendar needs, and every component. *)
Theorem C91_needed : forall {U : Unicode} e c s, pcal_write e c = Ret s -> read_calendar (unfold s) = Ok c ->
  Forall pr_back (pcal_props c) /\ Forall pc_lines (pcal_comps c).
Proof. exact @calendar_needs. Qed.
Print Assumptions C91_needed.
Theorem C91_needed_component : forall {U : Unicode} e c n s m, pcomp_write e c n = Ret (s, m) -> read_component (unfold s) = Ok c -> pc_lines c.
Proof. intros U e c n s m W. exact (proj1 (component_back e c n s m W)). Qed.
Print Assumptions C91_needed_component.

(** Calendars and components without the parts of the syntax that depend on what stands around them. *)
Theorem C91_exact : forall {U : Unicode} e c s, pcal_write e c = Ret s -> Forall pr_tame (pcal_props c) -> Forall pc_tame (pcal_comps c) ->
  (read_calendar (unfold s) = Ok c <-> Forall pr_back (pcal_props c) /\ Forall pc_back (pcal_comps c)).
Proof. exact @calendar_back. Qed.
Print Assumptions C91_exact.
Theorem C91_component : forall {U : Unicode} e c n s m, pcomp_write e c n = Ret (s, m) -> pc_tame c ->
  (read_component (unfold s) = Ok c <-> pc_back c).
Proof. intros U e c n s m W. exact (proj2 (component_back e c n s m W)). Qed.
Print Assumptions C91_component.
(** If only the stamps are missing, they are all that is added. *)
Theorem C91_stamps : forall {U : Unicode} e c s, pcal_write e c = Ret s -> Forall pr_tame (pcal_props c) -> Forall pc_tame (pcal_comps c) ->
  Forall pr_back (pcal_props c) -> Forall pc_lines (pcal_comps c) ->
  exists ds, Forall2 (stamped e) (pcal_comps c) ds /\ read_calendar (unfold s) = Ok (mk_pcal (pcal_props c) ds).
Proof. exact @calendar_read. Qed.
Print Assumptions C91_stamps.

Section Some.
  Local Existing Instance some_unicode.
  Definition one_line (k v : string) : pprop := mk_pprop (lit k) (lit v) [].
  Definition two_cals : list pcal :=
    [mk_pcal [one_line "VERSION" "2.0"] [mk_pcomp (lit "CALENDAR") [one_line "UID" "u"] [mk_pcomp (lit "X") [one_line "RRULE" "a\,b"] []]];
     mk_pcal [one_line "VERSION" "2.0"] [mk_pcomp (lit "CALENDAR") [one_line "UID" "u"; one_line "DTSTAMP" "20240229T120000Z"] []]].
  Lemma one_tame : forall k v, map lower_ascii (lit k) <> lit "end" -> map lower_ascii (lit k) <> lit "begin" -> unmarkedb (lit v) = true -> pr_tame (one_line k v).
  Proof. intros k v A B M. split; [easy|]. split; [easy|]. split; [constructor|]. now apply unmarkedb_spec. Qed.
  Example C91_example : Forall (fun c => Forall pr_tame (pcal_props c) /\ Forall pc_tame (pcal_comps c)) two_cals
    /\ map (fun c => match pcal_write some_env c with Ret s => match read_calendar (unfold s) with Ok d => Some (length (pcal_props d), map (fun x => length (pc_props x)) (pcal_comps d)) | _ => None end | _ => None end) two_cals
       = [Some (1, [2]); Some (1, [2])]
    /\ exists c s, In c two_cals /\ pcal_write some_env c = Ret s /\ read_calendar (unfold s) = Ok c.
  Proof.
    split.
    - repeat first [apply Forall_cons|apply Forall_nil|apply conj|apply Pc_tame|apply one_tame; [vm_compute; discriminate|vm_compute; discriminate|vm_compute; reflexivity]].
    - split; [vm_compute; reflexivity|]. eexists _, _. split; [right; left; reflexivity|]. split; vm_compute; reflexivity.
  Qed.
  (** A double quote in the value ends a quoted string that began in a parameter. *)
  Definition ajar : pprop := mk_pprop (lit "X") (lit "b"":c") [mk_pparam (lit "A") (Some (lit """a"))].
  Definition closed : pprop := mk_pprop (lit "X") (lit "bc") [mk_pparam (lit "A") (Some (lit """a"))].
  Example C91_property_example : pr_back ajar /\ pr_back closed
    /\ (exists s, pprop_write ajar = Ret s /\ read_property (unfold s) = Ok (mk_pprop (lit "X") (lit "c") [mk_pparam (lit "A") (Some (lit "a:b"))]))
    /\ (exists s, pprop_write closed = Ret s /\ read_property (unfold s) = Ok closed).
  Proof.
    assert (B : forall v, ~ In CR (lit v) -> pr_back (mk_pprop (lit "X") (lit v) [mk_pparam (lit "A") (Some (lit """a"))])).
    { intros v N. split; [split; [apply name_ok_spec; reflexivity|split; intros [r X]; discriminate X]|]. split.
      - constructor; [|constructor]. split; [apply name_ok_spec; reflexivity|]. cbn [pp_val]. split; [discriminate|]. split; intros I; vm_compute in I; intuition discriminate.
      - split; [intros (x & y & X); apply N; cbn [pr_val] in X; rewrite X; apply in_or_app; right; now left|]. intros T. vm_compute in T. discriminate T. }
    split; [apply B; intros I; vm_compute in I; intuition discriminate|]. split; [apply B; intros I; vm_compute in I; intuition discriminate|].
    split; eexists; (split; vm_compute; reflexivity).
  Qed.
End Some.
