(** C96: where the Unicode tables matter. *)
From Verif Require Import Str StrFacts Spec Fold ValueTypes Property Chrono DateTime Component Calendar Access Nom Parser ErrorText SpecTables SpecDoc SpecItems UnfoldProofs ItemProofs TableProofs Properties_Build.
From Coq Require Import ZifyBool ZifyNat ZifyN.

(** Writing and the getters do not depend on them at all, whatever is written. *)
Theorem C96_write : forall U V : Unicode,
  (forall k, @by_name U k = @by_name V k) /\ (forall p, @prop_value_type U p = @prop_value_type V p)
  /\ (forall p, @dpt_from_property U p = @dpt_from_property V p)
  /\ (forall i, @get_start U i = @get_start V i /\ @get_end U i = @get_end V i /\ @get_due U i = @get_due V i)
  /\ (forall p, @prop_write U p = @prop_write V p)
  /\ (forall e k i n, @inner_write U e k i n = @inner_write V e k i n)
  /\ (forall e c, @cal_write U e c = @cal_write V e c).
Proof.
  intros U V. split; [apply by_name_table_same|]. split; [apply value_type_same|]. split; [apply dpt_same|].
  split; [|split; [apply prop_write_same|split; [intros; apply inner_write_same|apply cal_write_same]]].
  intros i. unfold get_start, get_end, get_due. split; [|split]; match goal with |- context [map_get ?k _] => now destruct (map_get k (i_props i)); rewrite ?(dpt_same U V) end.
Qed.
Print Assumptions C96_write.

(** Reading depends on them only in which of the characters of the text beyond ASCII are letters or digits: the answers and the messages are the same. *)
Theorem C96_read : forall (U V : Unicode) i, same_letters U V i ->
  @read_calendar_simple U i = @read_calendar_simple V i /\ @read_calendar_s U i = @read_calendar_s V i /\ @read_components_s U i = @read_components_s V i
  /\ @read_component_s U i = @read_component_s V i /\ @read_property_s U i = @read_property_s V i /\ @read_parameter_s U i = @read_parameter_s V i.
Proof.
  intros U V i D. unfold read_calendar_simple, read_calendar_s, read_components_s, read_component_s, read_property_s, read_parameter_s,
    read_calendar, read_components, read_component, read_property, read_parameter.
  rewrite (proj1 (m_components U V (E := str * ekind) i D)), (proj1 (m_components U V (E := verror) i D)), (proj1 (m_component_p U V (E := verror) i D)),
    (proj1 (m_property U V (E := verror) i D)), (proj1 (m_parameter U V (E := verror) i D)). repeat split.
Qed.
Print Assumptions C96_read.
Lemma unfolds_in : forall s t c, unfolds s t -> In c t -> In c s.
Proof. intros s t c H. induction H; cbn [In]; intuition. Qed.
Theorem C96_from_str : forall (U V : Unicode) s, same_letters U V s ->
  @calendar_from_str_s U s = @calendar_from_str_s V s /\ @cc_from_str_s U s = @cc_from_str_s V s /\ @property_from_str_s U s = @property_from_str_s V s
  /\ @calendar_from_str U s = @calendar_from_str V s /\ @cc_from_str U s = @cc_from_str V s /\ @property_from_str U s = @property_from_str V s.
Proof.
  intros U V s D. assert (D2 : same_letters U V (unfold s)).
  { intros c I. apply D. apply (unfolds_in s (unfold s)); [apply unfold_unfolds|easy]. }
  destruct (C96_read U V s D) as (_ & _ & _ & _ & P & _). destruct (C96_read U V (unfold s) D2) as (_ & C & _ & K & _).
  unfold calendar_from_str_s, cc_from_str_s, property_from_str_s. rewrite C, K, P. repeat split.
  - unfold calendar_from_str, read_calendar. now rewrite (proj1 (m_components U V (E := verror) _ D2)).
  - unfold cc_from_str, read_component. now rewrite (proj1 (m_component_p U V (E := verror) _ D2)).
  - unfold property_from_str, read_property. now rewrite (proj1 (m_property U V (E := verror) _ D)).
Qed.
Print Assumptions C96_from_str.
(** So an ASCII text is read in the same way with all tables. *)
Theorem C96_ascii : forall (U V : Unicode) s, ascii s ->
  @calendar_from_str_s U s = @calendar_from_str_s V s /\ @cc_from_str_s U s = @cc_from_str_s V s /\ @property_from_str_s U s = @property_from_str_s V s
  /\ @read_calendar_s U s = @read_calendar_s V s /\ @read_components_s U s = @read_components_s V s /\ @read_component_s U s = @read_component_s V s
  /\ @read_property_s U s = @read_property_s V s /\ @read_parameter_s U s = @read_parameter_s V s /\ @read_calendar_simple U s = @read_calendar_simple V s.
Proof.
  intros U V s A. assert (D : same_letters U V s).
  { intros c I L. unfold ascii in A. rewrite Forall_forall in A. apply A in I. lia. }
  destruct (C96_from_str U V s D) as (A1 & A2 & A3 & _). destruct (C96_read U V s D) as (B1 & B2 & B3 & B4 & B5 & B6). easy.
Qed.
Print Assumptions C96_ascii.

(** Each of these characters matters: two tables read all properties alike exactly if they have the same letters and digits. *)
Theorem C96_exact : forall U V : Unicode, (forall i, @read_property U i = @read_property V i) <-> forall c, (128 <= c)%N -> @alnum_hi U c = @alnum_hi V c.
Proof.
  intros U V. split.
  - intros H c L. specialize (H [c]).
    assert (R : forall W : Unicode, @read_property W [c] = Ok (mk_pprop (if @alnum_hi W c then [c] else []) [] [])).
    { intros W. apply read_property_exact. split.
      { intros (w & r & _ & [R|R]); apply (f_equal (@length _)) in R; rewrite !app_length in R; cbn [length lit] in R; revert R; generalize (length r); cbn; lia. }
      right. split.
      - intros q (w & k & qs & t & v & r & Q & _). assert (I : In COLON [c]) by (rewrite Q; do 3 (apply in_or_app; right); now left).
        destruct I as [->|[]]. now apply L.
      - exists (if alnum_hi c then [c] else []). split; [|easy]. destruct (alnum_hi c) eqn:A; [exists []|exists [c]]; (split; [easy|]).
        + split; [|easy]. constructor; [|constructor]. right. unfold is_alnum. now replace (c <? 128)%N with false by lia.
        + split; [constructor|]. intros d x X [K|K]; injection X as <- _; [cbn [In] in K; lia|]. unfold is_alnum in K. replace (c <? 128)%N with false in K by lia. congruence. }
    rewrite !R in H. destruct (@alnum_hi U c), (@alnum_hi V c); try easy; discriminate H.
  - intros H i. unfold read_property. now rewrite (proj1 (m_property U V (E := verror) i (fun c _ L => H c L))).
Qed.
Print Assumptions C96_exact.

(** Parsed calendars and components are written with DTSTAMP and UID if their name is [calendar] in small letters; nothing else depends on the tables. *)
Theorem C96_parsed : forall U V : Unicode,
  (forall e c n, Forall (same_lower U V) (all_names c) -> @pcomp_write U e c n = @pcomp_write V e c n)
  /\ (forall e c, Forall (same_lower U V) (flat_map all_names (pcal_comps c)) -> @pcal_write U e c = @pcal_write V e c).
Proof. intros U V. split; [intros; now apply pcomp_write_same|intros; now apply pcal_write_same]. Qed.
Print Assumptions C96_parsed.

(** A table with one letter more (e with an acute accent), and one where it is the small letter of itself and of a large one. *)
Definition no_letters : Unicode := {| alnum_hi _ := false; lower_hi _ := false; tolower_hi c := [c] |}.
Definition one_letter : Unicode := {| alnum_hi c := (c =? 233)%N; lower_hi c := (c =? 233)%N; tolower_hi c := if (c =? 201)%N then [233%N] else [c] |}.
Definition accent_doc : str := lit "BEGIN:VCALENDAR" ++ [LF] ++ lit "SUMMARY:" ++ [252%N] ++ [LF] ++ lit "END:VCALENDAR" ++ [LF].
Definition name_doc : str := lit "BEGIN:VCALENDAR" ++ [LF] ++ [233%N] ++ lit ":x" ++ [LF] ++ lit "END:VCALENDAR" ++ [LF].
Example C96_read_example : same_letters no_letters one_letter accent_doc /\ ~ ascii accent_doc
  /\ @read_calendar no_letters accent_doc = Ok (mk_pcal [mk_pprop (lit "SUMMARY") [252%N] []] [])
  /\ ~ same_letters no_letters one_letter name_doc
  /\ @read_calendar one_letter name_doc = Ok (mk_pcal [mk_pprop [233%N] (lit "x") []] [])
  /\ @read_calendar no_letters name_doc = Ok (mk_pcal [] []).
Proof.
  split; [|split; [|split; [now vm_compute|split; [|now vm_compute]]]].
  - intros c I L. cbn. symmetry. apply N.eqb_neq. intros ->. vm_compute in I. intuition discriminate.
  - intros A. unfold ascii in A. rewrite Forall_forall in A. specialize (A 252%N). assert (X : (252 < 128)%N); [|discriminate X]. apply A. vm_compute. tauto.
  - intros S. specialize (S 233%N). assert (X : false = true); [|discriminate X]. apply S; [vm_compute; tauto|easy].
Qed.
(** A component whose name is only with a strange table [calendar]. *)
Definition odd_case : Unicode := {| alnum_hi _ := true; lower_hi _ := false; tolower_hi c := if (c =? 200)%N then lit "c" else [c] |}.
Example C96_parsed_example : let c := mk_pcomp (200%N :: lit "ALENDAR") [] [] in ~ Forall (same_lower no_letters odd_case) (all_names c)
  /\ @pcomp_write no_letters some_env c 0 <> @pcomp_write odd_case some_env c 0
  /\ Forall (same_lower no_letters odd_case) (all_names (mk_pcomp (201%N :: lit "ALENDAR") [] [])).
Proof.
  split; [|split].
  - intros F. apply Forall_inv in F. specialize (F 200%N ltac:(now left) ltac:(easy)). discriminate F.
  - intros X. vm_compute in X. discriminate X.
  - constructor; [|constructor]. intros c I L. cbn. replace (c =? 200)%N with false; [easy|]. symmetry. apply N.eqb_neq. intros ->. vm_compute in I. intuition discriminate.
Qed.
