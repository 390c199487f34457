(** C98: what documents in the grammar of RFC 5545 are read as. *)
From Coq Require Import ZifyBool ZifyNat ZifyN.
From Verif Require Import Str StrFacts Spec Fold Text ValueTypes Property Chrono DateTime Component Calendar Nom Parser
  SpecBuild SpecDate SpecTree SpecDoc SpecRound SpecText SpecMore SpecRfc SpecImport DocProofs RfcProofs ImportProofs Properties_Build Properties_Rfc.

(** C98. A document of the grammar is read as the component it says if and only if it is one of those that are kept. *)
Theorem C98_exact : forall {U : Unicode} t s, rfc_document t s ->
  ((exists c, read_components (unfold s) = Ok [c] /\ component_said t c) <-> document_kept t s)
  /\ ((exists c, read_component (unfold s) = Ok c /\ component_said t c) <-> document_kept t s).
Proof. exact @document_exact. Qed.
Print Assumptions C98_exact.
Theorem C98_calendar_exact : forall {U : Unicode} rs cs s, rfc_document (RNode (lit "VCALENDAR") rs cs) s ->
  ((exists k, read_calendar (unfold s) = Ok k /\ calendar_from_str s = Ok (conv_cal k)
     /\ Forall2 line_said rs (pcal_props k) /\ Forall2 component_said cs (pcal_comps k))
   <-> document_kept (RNode (lit "VCALENDAR") rs cs) s).
Proof.
  intros U rs cs s D. rewrite <- (calendar_exact rs cs s D). split; intros (k & R & H); exists k.
  - now split.
  - split; [exact R|]. split; [|exact H]. unfold calendar_from_str. now rewrite R.
Qed.
Print Assumptions C98_calendar_exact.

(** A document with another one after it is read as nothing. *)
Theorem C98_stream : forall {U : Unicode} a b s s', document_kept a s -> rfc_document b s' ->
  read_components (unfold (s ++ s')) = Ok [] /\ read_calendar (unfold (s ++ s')) = Ok (mk_pcal [] []).
Proof. exact @stream_nothing. Qed.
Print Assumptions C98_stream.

(** Documents, line by line. *)
Lemma fold_plain : forall l, rfc_fold l (l ++ [CR; LF]).
Proof. induction l as [|c l IH]; [constructor|]. cbn [app]. now constructor. Qed.
Lemma lines_folded : forall ls, Forall2 rfc_fold ls (map (fun l => l ++ [CR; LF]) ls).
Proof. induction ls as [|l ls IH]; constructor; [apply fold_plain|exact IH]. Qed.
Lemma lines_document : forall t ls, rfc_component t ls -> rfc_document t (ended ls).
Proof. intros t ls C. exists ls, (map (fun l => l ++ [CR; LF]) ls). split; [exact C|]. split; [apply lines_folded|reflexivity]. Qed.
Lemma lines_kept : forall t ls, component_kept t ls -> document_kept t (ended ls).
Proof. intros t ls C. exists ls, (map (fun l => l ++ [CR; LF]) ls). split; [exact C|]. split; [apply lines_folded|reflexivity]. Qed.
Lemma chars_value : forall v, forallb (fun c => negb (controlb c)) v = true -> Forall value_char v.
Proof. intros v H. rewrite forallb_forall in H. rewrite Forall_forall. intros c I. apply H in I. unfold value_char, control. unfold controlb in I. lia. Qed.
Definition safeb (c : char) : bool := negb (controlb c) && negb (c =? 34)%N && negb (c =? 44)%N && negb (c =? 58)%N && negb (c =? 59)%N.
Lemma chars_safe : forall v, forallb safeb v = true -> Forall safe_char v.
Proof. intros v H. rewrite forallb_forall in H. rewrite Forall_forall. intros c I. apply H in I. unfold safe_char, quoted_char, control. unfold safeb, controlb in I. lia. Qed.
Definition quotedb (c : char) : bool := negb (controlb c) && negb (c =? 34)%N.
Lemma chars_quoted : forall v, forallb quotedb v = true -> Forall quoted_char v.
Proof. intros v H. rewrite forallb_forall in H. rewrite Forall_forall. intros c I. apply H in I. unfold quoted_char, control. unfold quotedb, controlb in I. lia. Qed.
Definition property_nameb (k : str) : bool := tokenb k && negb (str_eqb (map ascii_upper k) (lit "BEGIN")) && negb (str_eqb (map ascii_upper k) (lit "END")).
Lemma name_property : forall k, property_nameb k = true -> property_name k.
Proof.
  intros k H. unfold property_nameb in H. apply andb_prop in H as [H H2]. apply andb_prop in H as [H0 H1]. rewrite negb_true_iff in *.
  split; [now apply tokenb_spec|]. split; [change [66; 69; 71; 73; 78]%N with (lit "BEGIN")|change [69; 78; 68]%N with (lit "END")]; now apply str_eqb_neq.
Qed.
Lemma line_rfc : forall k ps ts v, property_nameb k = true -> rfc_params ps ts -> forallb (fun c => negb (controlb c)) v = true ->
  property_name (rl_name (RLine k ps v)) /\ rfc_line (RLine k ps v) (k ++ ts ++ COLON :: v).
Proof.
  intros k ps ts v K P V. apply name_property in K. split; [exact K|]. split; [now destruct K|]. split; [now apply chars_value|]. exists ts. now split.
Qed.

(** Quoted values with a comma between them, as RFC 5545 has them in section 3.2.11: the document is refused, or, if they are in the
    calendar itself, read as an empty calendar; a name that starts with END: refused; a value that says [\n]: read as a line break. *)
Definition quoted (s : str) : str := DQ :: s ++ [DQ].
Definition two_members : rline := RLine (lit "ATTENDEE") [(lit "MEMBER", [lit "mailto:a@b.c"; lit "mailto:d@b.c"])] (lit "mailto:e@b.c").
Definition two_members_line : str := lit "ATTENDEE" ++ (SEMI :: lit "MEMBER" ++ EQUALS :: (quoted (lit "mailto:a@b.c") ++ 44%N :: quoted (lit "mailto:d@b.c")) ++ []) ++ COLON :: lit "mailto:e@b.c".
Definition bad_lines (l : str) : list str := [lit "BEGIN:VCALENDAR"; lit "VERSION:2.0"; l; lit "END:VCALENDAR"].
Definition deep_lines (l : str) : list str := [lit "BEGIN:VCALENDAR"; lit "VERSION:2.0"; lit "BEGIN:VEVENT"; l; lit "END:VEVENT"; lit "END:VCALENDAR"].
Definition bad_tree (r : rline) : rtree := RNode (lit "VCALENDAR") [RLine (lit "VERSION") [] (lit "2.0"); r] [].
Definition deep_tree (r : rline) : rtree := RNode (lit "VCALENDAR") [RLine (lit "VERSION") [] (lit "2.0")] [RNode (lit "VEVENT") [r] []].
Lemma version_line : property_name (rl_name (RLine (lit "VERSION") [] (lit "2.0"))) /\ rfc_line (RLine (lit "VERSION") [] (lit "2.0")) (lit "VERSION:2.0").
Proof. change (lit "VERSION:2.0") with (lit "VERSION" ++ [] ++ COLON :: lit "2.0"). apply line_rfc; [reflexivity|constructor|reflexivity]. Qed.
Lemma bad_rfc : forall r l, property_name (rl_name r) /\ rfc_line r l -> rfc_document (bad_tree r) (ended (bad_lines l)).
Proof.
  intros r l L. apply lines_document. apply (Rfc_component (lit "VCALENDAR") _ [lit "VERSION:2.0"; l] [] []); [now apply tokenb_spec| |constructor].
  constructor; [apply version_line|]. constructor; [exact L|constructor].
Qed.
Lemma deep_rfc : forall r l, property_name (rl_name r) /\ rfc_line r l -> rfc_document (deep_tree r) (ended (deep_lines l)).
Proof.
  intros r l L. apply lines_document.
  apply (Rfc_component (lit "VCALENDAR") _ [lit "VERSION:2.0"] [RNode (lit "VEVENT") [r] []] [[lit "BEGIN:VEVENT"; l; lit "END:VEVENT"]]); [now apply tokenb_spec| |].
  - constructor; [apply version_line|constructor].
  - constructor; [|constructor]. apply (Rfc_component (lit "VEVENT") _ [l] [] []); [now apply tokenb_spec| |constructor]. constructor; [exact L|constructor].
Qed.
Lemma two_members_rfc : property_name (rl_name two_members) /\ rfc_line two_members two_members_line.
Proof.
  apply line_rfc; [reflexivity| |reflexivity]. apply rp_more; [now apply tokenb_spec| |constructor].
  apply (rl_more (lit "mailto:a@b.c") (quoted (lit "mailto:a@b.c"))); [|constructor]; apply rv_quoted; now apply chars_quoted.
Qed.
Theorem C98_refuted : forall {U : Unicode},
  (exists t s e, rfc_document t s /\ read_calendar (unfold s) = Err e)
  /\ (exists rs cs s, rfc_document (RNode (lit "VCALENDAR") rs cs) s /\ rs <> [] /\ read_calendar (unfold s) = Ok (mk_pcal [] []))
  /\ (exists r s e, property_name (rl_name r) /\ rl_params r = [] /\ rfc_document (bad_tree r) s /\ read_calendar (unfold s) = Err e)
  /\ exists r t s k p q, rfc_text t (rl_value r) /\ says_text r /\ rfc_document (bad_tree r) s /\ read_calendar (unfold s) = Ok k
       /\ pcal_props k = [q; p] /\ t = lit "C:\n" /\ pr_val p = lit "C:" ++ [LF].
Proof.
  intros U. split; [|split; [|split]].
  - exists (deep_tree two_members), (ended (deep_lines two_members_line)). eexists. split; [apply deep_rfc, two_members_rfc|]. vm_compute. reflexivity.
  - exists [RLine (lit "VERSION") [] (lit "2.0"); two_members], [], (ended (bad_lines two_members_line)). split; [apply bad_rfc, two_members_rfc|]. split; [discriminate|]. vm_compute. reflexivity.
  - exists (RLine (lit "ENDING") [] (lit "x")), (ended (bad_lines (lit "ENDING:x"))). eexists. split; [now apply name_property|]. split; [reflexivity|].
    split; [|vm_compute; reflexivity]. apply bad_rfc. change (lit "ENDING:x") with (lit "ENDING" ++ [] ++ COLON :: lit "x"). apply line_rfc; [reflexivity|constructor|reflexivity].
  - exists (RLine (lit "DESCRIPTION") [] (lit "C:\\n")), (lit "C:\n"), (ended (bad_lines (lit "DESCRIPTION:C:\\n"))). do 3 eexists. split; [|split; [|split; [|split; [vm_compute; reflexivity|split; [reflexivity|split; reflexivity]]]]].
    + cbn [rl_value]. apply rt_char; [vm_compute; intuition discriminate|vm_compute; intuition discriminate|].
      apply rt_char; [vm_compute; intuition discriminate|vm_compute; intuition discriminate|].
      apply rt_escaped; [vm_compute; tauto|]. apply rt_char; [vm_compute; intuition discriminate|vm_compute; intuition discriminate|]. constructor.
    + right. split; [constructor|]. exists "DESCRIPTION"%string. split; [cbn; tauto|reflexivity].
    + apply bad_rfc. change (lit "DESCRIPTION:C:\\n") with (lit "DESCRIPTION" ++ [] ++ COLON :: lit "C:\\n"). apply line_rfc; [reflexivity|constructor|reflexivity].
Qed.
Print Assumptions C98_refuted.
(** A value in quotes with a comma and two values are read alike. *)
Definition one_member (vs : list str) : rline := RLine (lit "X-A") [(lit "X-M", vs)] (lit "v").
Theorem C98_merged_refuted : forall {U : Unicode}, exists r r' s s' k, rfc_document (bad_tree r) s /\ rfc_document (bad_tree r') s' /\ r <> r'
  /\ read_calendar (unfold s) = Ok k /\ read_calendar (unfold s') = Ok k.
Proof.
  intros U. exists (one_member [lit "a,b"]), (one_member [lit "a"; lit "b"]), (ended (bad_lines (lit "X-A" ++ (SEMI :: lit "X-M" ++ EQUALS :: quoted (lit "a,b") ++ []) ++ COLON :: lit "v"))),
    (ended (bad_lines (lit "X-A" ++ (SEMI :: lit "X-M" ++ EQUALS :: (lit "a" ++ 44%N :: lit "b") ++ []) ++ COLON :: lit "v"))).
  eexists. split; [|split; [|split; [discriminate|split; vm_compute; reflexivity]]].
  - apply bad_rfc, line_rfc; [reflexivity| |reflexivity]. apply rp_more; [now apply tokenb_spec| |constructor]. constructor. apply rv_quoted. now apply chars_quoted.
  - apply bad_rfc, line_rfc; [reflexivity| |reflexivity]. apply rp_more; [now apply tokenb_spec| |constructor]. constructor; [|constructor]; apply rv_plain; now apply chars_safe.
Qed.
Print Assumptions C98_merged_refuted.

(** A document that is kept: quotes, several values, escapes, a folded line, a component in the calendar. *)
Lemma plain_kept : forall r, ~ In BSL (rl_value r) -> value_kept r.
Proof.
  intros r N. split; [|split].
  - intros _ _ a d b _ E. exfalso. apply N. rewrite E. unfold wire. rewrite flat_map_app. apply in_or_app. right. now left.
  - easy.
  - intros _ _ (a & d & b & E & _). apply N. rewrite E. apply in_or_app. right. now left.
Qed.
Lemma wire_one : forall ps qs, Forall rfc_piece ps -> Forall rfc_piece qs -> wire ps = wire qs -> ps = qs.
Proof.
  induction ps as [|p ps IH]; intros [|q qs] P Q E; [reflexivity|destruct q; discriminate E|destruct p; discriminate E|].
  inversion P as [|? ? P1 P2]; subst. inversion Q as [|? ? Q1 Q2]; subst.
  destruct p as [c|c], q as [d|d]; unfold wire in E; cbn [flat_map wire_piece app] in E.
  - injection E as -> E. f_equal. now apply IH.
  - injection E as -> _. now exfalso.
  - injection E as <- _. now exfalso.
  - injection E as -> E. f_equal. now apply IH.
Qed.
Definition kept_cal : rtree := RNode (lit "VCALENDAR") [RLine (lit "VERSION") [] (lit "2.0")]
  [RNode (lit "VEVENT") [RLine (lit "DESCRIPTION") [(lit "ALTREP", [lit "cid:a;b"]); (lit "X-L", [lit "a"; lit "b"])] (lit "a\, b\\c\nd: e")] []].
Definition kept_line : str := lit "DESCRIPTION" ++ (SEMI :: lit "ALTREP" ++ EQUALS :: quoted (lit "cid:a;b") ++ (SEMI :: lit "X-L" ++ EQUALS :: (lit "a" ++ 44%N :: lit "b") ++ [])) ++ COLON :: lit "a\, b\\c\nd: e".
Definition kept_doc : str := ended [lit "BEGIN:VCALENDAR"; lit "VERSION:2.0"; lit "BEGIN:VEVENT"] ++ firstn 40 kept_line ++ [CR; LF; TAB] ++ skipn 40 kept_line ++ [CR; LF] ++ ended [lit "END:VEVENT"; lit "END:VCALENDAR"].
Lemma kept_params_some : rfc_params [(lit "ALTREP", [lit "cid:a;b"]); (lit "X-L", [lit "a"; lit "b"])] (SEMI :: lit "ALTREP" ++ EQUALS :: quoted (lit "cid:a;b") ++ (SEMI :: lit "X-L" ++ EQUALS :: (lit "a" ++ 44%N :: lit "b") ++ []))
  /\ kept_params [(lit "ALTREP", [lit "cid:a;b"]); (lit "X-L", [lit "a"; lit "b"])] (SEMI :: lit "ALTREP" ++ EQUALS :: quoted (lit "cid:a;b") ++ (SEMI :: lit "X-L" ++ EQUALS :: (lit "a" ++ 44%N :: lit "b") ++ [])).
Proof.
  assert (A : rfc_pvalues [lit "cid:a;b"] (quoted (lit "cid:a;b"))) by (constructor; apply rv_quoted; now apply chars_quoted).
  assert (B : rfc_pvalues [lit "a"; lit "b"] (lit "a" ++ 44%N :: lit "b")) by (constructor; [|constructor]; apply rv_plain; now apply chars_safe).
  split.
  - apply rp_more; [now apply tokenb_spec|exact A|]. apply rp_more; [now apply tokenb_spec|exact B|constructor].
  - apply kp_more; [exact A|right; now exists (lit "cid:a;b")|]. apply kp_more; [exact B|left; vm_compute; intuition discriminate|constructor].
Qed.
Example C98_example : document_kept kept_cal kept_doc /\ rfc_document kept_cal kept_doc.
Proof.
  assert (K : component_kept kept_cal [lit "BEGIN:VCALENDAR"; lit "VERSION:2.0"; lit "BEGIN:VEVENT"; kept_line; lit "END:VEVENT"; lit "END:VCALENDAR"]).
  { apply (Component_kept (lit "VCALENDAR") _ [lit "VERSION:2.0"] [RNode (lit "VEVENT") _ []] [[lit "BEGIN:VEVENT"; kept_line; lit "END:VEVENT"]]); [now apply tokenb_spec| |].
    - constructor; [|constructor]. split; [apply version_line|]. split; [intros [q E]; discriminate E|]. split; [intros [q E]; discriminate E|].
      split; [exists []; split; [constructor|reflexivity]|]. apply plain_kept. vm_compute. intuition discriminate.
    - constructor; [|constructor]. apply (Component_kept (lit "VEVENT") _ [kept_line] [] []); [now apply tokenb_spec| |constructor]. constructor; [|constructor].
      split; [apply line_rfc; [reflexivity|apply kept_params_some|reflexivity]|]. split; [intros [q E]; discriminate E|]. split; [intros [q E]; discriminate E|].
      split; [eexists; split; [apply kept_params_some|reflexivity]|].
      set (v := lit "a\, b\\c\nd: e").
      set (ps := [Plain 97; Escaped 44; Plain 32; Plain 98; Escaped 92; Plain 99; Escaped 110; Plain 100; Plain 58; Plain 32; Plain 101]%N).
      assert (T : taken_text (RLine (lit "DESCRIPTION") [(lit "ALTREP", [lit "cid:a;b"]); (lit "X-L", [lit "a"; lit "b"])] v)).
      { right. split.
        - intros n t _ (a & k & b & E & <- & _). cbn [rl_params] in E. destruct a as [|x [|y [|z a]]]; discriminate E.
        - exists "DESCRIPTION"%string. split; [cbn; tauto|reflexivity]. }
      split; [|split; [easy|]].
      + intros _ _ a d b F E I. change (rl_value _) with (wire ps) in E. apply wire_one in E; [| |exact F].
        * unfold ps in E. repeat (destruct a as [|? a]; cbn [app] in E; [injection E; try discriminate; intros; subst; cbn in I; intuition discriminate|injection E as _ E]). now destruct a.
        * unfold ps. repeat (constructor; [cbn; first [discriminate|tauto]|]). constructor.
      + intros N _ _. apply N. right. split; [|exists "DESCRIPTION"%string; split; [cbn; tauto|reflexivity]].
        constructor; [discriminate|]. constructor; [discriminate|constructor]. }
  assert (G : Forall2 rfc_fold [lit "BEGIN:VCALENDAR"; lit "VERSION:2.0"; lit "BEGIN:VEVENT"; kept_line; lit "END:VEVENT"; lit "END:VCALENDAR"]
    (map (fun l => l ++ [CR; LF]) [lit "BEGIN:VCALENDAR"; lit "VERSION:2.0"; lit "BEGIN:VEVENT"] ++ [firstn 40 kept_line ++ [CR; LF; TAB] ++ skipn 40 kept_line ++ [CR; LF]] ++ map (fun l => l ++ [CR; LF]) [lit "END:VEVENT"; lit "END:VCALENDAR"])).
  { cbn [map app]. do 3 (constructor; [apply fold_plain|]). constructor; [|do 2 (constructor; [apply fold_plain|]); constructor].
    assert (X : forall a b t, rfc_fold b t -> rfc_fold (a ++ b) (a ++ t)) by (induction a as [|c a IH]; intros b t H; [exact H|cbn [app]; constructor; now apply IH]).
    rewrite <- (firstn_skipn 40 kept_line) at 1. apply X. apply (rf_fold 9%N); [cbn; tauto|]. apply fold_plain. }
  assert (E : kept_doc = concat (map (fun l => l ++ [CR; LF]) [lit "BEGIN:VCALENDAR"; lit "VERSION:2.0"; lit "BEGIN:VEVENT"] ++ [firstn 40 kept_line ++ [CR; LF; TAB] ++ skipn 40 kept_line ++ [CR; LF]] ++ map (fun l => l ++ [CR; LF]) [lit "END:VEVENT"; lit "END:VCALENDAR"])) by reflexivity.
  split; eexists _, _; (split; [|split; [exact G|exact E]]); [exact K|now apply kept_rfc].
Qed.
