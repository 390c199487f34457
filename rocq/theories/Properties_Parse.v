(** C14, C34, C37-C40, C45, C46, C50-C52: the parser. *)
From Verif Require Import Str Spec Fold ValueTypes Property Chrono DateTime Component Alarm Calendar Nom Parser
  SpecDoc StrFacts ParserProofs TotalProofs ReadProofs AcceptProofs RejectProofs ErrorProofs DocProofs Properties_Build.

Local Existing Instance some_unicode.

(** A document for the examples: a calendar with two properties and an event, with a blank line. *)
Definition some_doc : wtree :=
  W (lit "VCALENDAR")
    [inl (LValue (lit "PRODID") [] (lit "x"));
     inr (W (lit "VEVENT")
       [inl (LValue (lit "DTSTART") [mk_wparam (lit "TZID") (FQuoted (lit "a:b")); mk_wparam (lit "X") FNone] (lit "20240101T000000"));
        inl (LValue (lit "SUMMARY") [] (lit "a\, b"))]);
     inl (LBare (lit "X-FLAG"))].
Definition some_doc_text : str :=
  lit "begin:VCALENDAR" ++ [CR; LF] ++ lit "PRODID:x" ++ [CR; LF] ++ lit "BEGIN:VEVENT" ++ [CR; LF; CR; LF; LF]
  ++ lit "DTSTART;TZID=""a:b"";X:20240101T000000" ++ [CR; LF] ++ lit "SUMMARY:a\, b" ++ [CR; LF]
  ++ lit "End:VEVENT" ++ [CR; LF] ++ lit "X-FLAG" ++ [CR; LF] ++ lit "END:VCALENDAR" ++ [CR; LF].
Lemma some_doc_ok : wtree_ok CrLf some_doc.
Proof. apply wtree_okb_spec. now vm_compute. Qed.
Lemma some_doc_written : wtree_text CrLf some_doc some_doc_text.
Proof.
  assert (L : forall b, breaks b -> line_end CrLf ([CR; LF] ++ b)) by (intros b B; now exists b).
  assert (L0 : line_end CrLf [CR; LF]) by (apply (L []); constructor).
  apply (W_text CrLf (lit "VCALENDAR") _ (lit "begin:") (lit "END:") [CR; LF] [CR; LF]
    [lit "PRODID:x" ++ [CR; LF];
     lit "BEGIN:VEVENT" ++ [CR; LF; CR; LF; LF] ++ lit "DTSTART;TZID=""a:b"";X:20240101T000000" ++ [CR; LF] ++ lit "SUMMARY:a\, b" ++ [CR; LF]
       ++ lit "End:VEVENT" ++ [CR; LF];
     lit "X-FLAG" ++ [CR; LF]]); try easy.
  constructor; [constructor; now exists [CR; LF]|].
  constructor; [constructor|constructor; [constructor; now exists [CR; LF]|constructor]].
  apply (W_text CrLf (lit "VEVENT") _ (lit "BEGIN:") (lit "End:") [CR; LF; CR; LF; LF] [CR; LF]
    [lit "DTSTART;TZID=""a:b"";X:20240101T000000" ++ [CR; LF]; lit "SUMMARY:a\, b" ++ [CR; LF]]); try easy.
  - apply (L [CR; LF; LF]). apply (bk_cons [CR; LF] [LF]); [now left|]. apply (bk_cons [LF] []); [now right|constructor].
  - constructor; [constructor; now exists [CR; LF]|]. constructor; [constructor; now exists [CR; LF]|constructor].
Qed.

(** ** C14 *)
Theorem C14_property : forall {U : Unicode} i,
  answered (property_from_str i) /\
  ((exists e, property_from_str i = Err e) <->
   exists w r, Forall (fun c => In c [SP; TAB; CR; LF]) w /\ (i = w ++ lit "END" ++ r \/ i = w ++ lit "BEGIN" ++ r)).
Proof.
  intros U i. split; [apply parser_answers|]. rewrite <- property_read_error. unfold property_from_str.
  destruct (read_property i) as [p|e|]; cbn; split; intros [x H]; try discriminate H; eauto.
Qed.
Print Assumptions C14_property.

Example C14_example :
  property_from_str (lit "SUMMARY:a") = Ok (mk_property (lit "SUMMARY") (lit "a") [])
  /\ property_from_str (lit "::") = Ok (mk_property [] (lit ":") [])
  /\ (exists e, property_from_str (SP :: LF :: lit "ENDDATE:1") = Err e).
Proof. split; [now vm_compute|]. split; [now vm_compute|]. eexists. now vm_compute. Qed.

(** ** C34 *)
(** Every entry point answers on every input (the model's recursion is bounded by the length of the input and
    never runs out). *)
Theorem C34_answers : forall {U : Unicode} i, answered (read_calendar i) /\ answered (read_components i)
  /\ answered (read_calendar_simple i) /\ answered (read_component i) /\ answered (read_property i)
  /\ answered (read_parameter i) /\ answered (calendar_from_str i) /\ answered (cc_from_str i) /\ answered (property_from_str i).
Proof. exact @parser_answers. Qed.
Print Assumptions C34_answers.
(** But refuted for a bounded stack: no recursion depth is enough for all inputs; one level of depth takes nine
    octets of input.  A run of BEGIN lines overflows the stack of the Rust program. *)
Theorem C34_bounded_stack_refuted : forall {U : Unicode} depth, exists i,
  length i = 9 * depth /\ component (E := verror) depth i = IFuel.
Proof.
  intros U d. exists (nested_begins d). split; [|now apply depth_needed].
  unfold nested_begins. induction d as [|d IH]; [easy|]. cbn [repeat concat]. rewrite app_length, IH. cbn [length app lit].
  change (length _) with 9. now rewrite Nat.mul_succ_r, Nat.add_comm.
Qed.
Print Assumptions C34_bounded_stack_refuted.

Example C34_example : exists e, calendar_from_str (lit "BEGIN:A" ++ [LF] ++ lit "BEGIN:B" ++ [LF] ++ lit "END:A") = Err e.
Proof. eexists. now vm_compute. Qed.

(** ** C37 *)
(** Refuted: of two roots, none is read. *)
Theorem C37_roots_refuted : forall {U : Unicode}, exists t u, wtree_ok CrLf t /\ wtree_ok CrLf u
  /\ read_components (render CrLf t ++ render CrLf u) = Ok [].
Proof. intros U. exists (W [] []), (W [] []). split; [now repeat constructor|]. split; [now repeat constructor|]. reflexivity. Qed.
Print Assumptions C37_roots_refuted.
(** This is so for every document with more than one root, and for any other text after the first root: the
    answer is Ok, without a component. *)
Theorem C37_lost_partial : forall {U : Unicode} y t s b rest, wtree_ok y t -> wtree_text y t s -> breaks b ->
  no_break_next rest -> rest <> [] -> (y = Lf -> ~ has_crlf (s ++ rest)) ->
  read_components (b ++ s ++ rest) = Ok [] /\ read_calendar (b ++ s ++ rest) = Ok (mk_pcal [] []).
Proof. intros. apply (trailing y t); try assumption. now apply no_break_spec. Qed.
Print Assumptions C37_lost_partial.
(** One root is read. *)
Theorem C37_one_partial : forall {U : Unicode} y t s b, wtree_ok y t -> wtree_text y t s -> breaks b ->
  (y = Lf -> ~ has_crlf s) -> read_components (b ++ s) = Ok [wtree_read t].
Proof. intros. now apply (document_read y t). Qed.
Print Assumptions C37_one_partial.

Example C37_example : read_components (some_doc_text ++ some_doc_text) = Ok []
  /\ read_components some_doc_text = Ok [wtree_read some_doc].
Proof. split; now vm_compute. Qed.

(** ** C38 *)
(** Refuted: a calendar with an event, cut off before its END line, is read as an empty calendar. *)
Theorem C38_refuted : forall {U : Unicode}, exists n s, open_text CrLf n s
  /\ n = lit "VCALENDAR" /\ length s > 50 /\ read_calendar s = Ok (mk_pcal [] []).
Proof.
  intros U. exists (lit "VCALENDAR"), (lit "BEGIN:" ++ lit "VCALENDAR" ++ [CR; LF] ++ concat [render CrLf (W (lit "VEVENT")
    [inl (LValue (lit "SUMMARY") [] (lit "x"))])]). repeat apply conj; [|easy|cbn; repeat constructor|reflexivity].
  apply (Open_text CrLf (lit "VCALENDAR") [inr (W (lit "VEVENT") [inl (LValue (lit "SUMMARY") [] (lit "x"))])]).
  - now apply name_ok_spec.
  - easy.
  - exists []. split; [easy|constructor].
  - constructor; [|constructor]. constructor. now apply wtree_okb_spec.
  - constructor; [|constructor]. constructor. apply render_text.
Qed.
Print Assumptions C38_refuted.
(** This is so for every document cut off within its root component, after any line. *)
Theorem C38_truncated_partial : forall {U : Unicode} y n s b, open_text y n s -> breaks b -> (y = Lf -> ~ has_crlf s) ->
  read_components (b ++ s) = Ok [] /\ read_calendar (b ++ s) = Ok (mk_pcal [] []).
Proof. exact @truncated_read. Qed.
Print Assumptions C38_truncated_partial.
(** The answer Ok comes with no component, or with one component that accounts for the whole text. *)
Theorem C38_accounted_partial : forall {U : Unicode} i l, read_components i = Ok l ->
  l = [] \/ exists c, l = [c] /\ comp_taken c i [].
Proof. exact @accepted. Qed.
Print Assumptions C38_accounted_partial.

Example C38_example :
  let s := lit "BEGIN:VCALENDAR" ++ [CR; LF] ++ lit "BEGIN:VEVENT" ++ [CR; LF] ++ lit "SUMMARY:x" ++ [CR; LF] ++ lit "END:VEVENT" ++ [CR; LF] in
  open_text CrLf (lit "VCALENDAR") s /\ read_calendar s = Ok (mk_pcal [] []).
Proof.
  split; [|now vm_compute].
  apply (Open_text CrLf (lit "VCALENDAR") [inr (W (lit "VEVENT") [inl (LValue (lit "SUMMARY") [] (lit "x"))])] (lit "BEGIN:") [CR; LF]
    [lit "BEGIN:VEVENT" ++ [CR; LF] ++ lit "SUMMARY:x" ++ [CR; LF] ++ lit "END:VEVENT" ++ [CR; LF]]).
  - apply name_ok_spec. now vm_compute.
  - easy.
  - exists []. split; [easy|constructor].
  - constructor; [|constructor]. constructor. apply wtree_okb_spec. now vm_compute.
  - constructor; [|constructor]. constructor. apply render_text.
Qed.

(** ** C39 *)
(** Refuted: END:VEVENTX closes a VEVENT; what remains of the name becomes a property. *)
Theorem C39_prefix_refuted : forall {U : Unicode}, exists n m, n <> m /\ name_ok m /\
  read_calendar (lit "BEGIN:VCALENDAR" ++ [LF] ++ lit "BEGIN:" ++ n ++ [LF] ++ lit "END:" ++ m ++ [LF] ++ lit "END:VCALENDAR" ++ [LF])
  = Ok (mk_pcal [mk_pprop (lit "X") [] []] [mk_pcomp n [] []]).
Proof. intros U. exists (lit "VEVENT"), (lit "VEVENTX"). split; [discriminate|]. split; [now apply name_ok_spec|reflexivity]. Qed.
Print Assumptions C39_prefix_refuted.
(** Any other END line, at any depth, is an error. *)
Theorem C39_mismatch_partial : forall {U : Unicode} y s b, misnested y s -> breaks b -> (y = Lf -> ~ has_crlf s) ->
  exists e, read_components (b ++ s) = Err e /\ read_calendar (b ++ s) = Err e /\ read_component (b ++ s) = Err e.
Proof. exact @mismatched_read. Qed.
Print Assumptions C39_mismatch_partial.
(** And every accepted component is closed by END and its own name, at every level ([comp_taken]). *)
Theorem C39_closed_partial : forall {U : Unicode} i c, read_component i = Ok c -> exists s r, i = s ++ r /\ comp_taken c s r.
Proof. exact @component_accepted. Qed.
Print Assumptions C39_closed_partial.

Example C39_example :
  let s := (lit "BEGIN:VCALENDAR" ++ [CR; LF]) ++ (lit "BEGIN:VEVENT" ++ [CR; LF]) ++ lit "END:" ++ lit "VTODO" ++ [CR; LF] ++ lit "END:VCALENDAR" ++ [CR; LF] in
  misnested CrLf s /\ exists e, read_calendar s = Err e.
Proof.
  split; [|eexists; now vm_compute].
  assert (O : forall n, name_ok n -> open_text CrLf n (lit "BEGIN:" ++ n ++ [CR; LF] ++ concat [])).
  { intros n N. apply (Open_text CrLf n []); try easy. exists []. split; [easy|constructor]. }
  apply (mis_inside CrLf (lit "VCALENDAR") (lit "BEGIN:VCALENDAR" ++ [CR; LF])).
  - apply (O (lit "VCALENDAR")). apply name_ok_spec. now vm_compute.
  - apply (mis_here CrLf (lit "VEVENT") (lit "BEGIN:VEVENT" ++ [CR; LF])); try easy.
    + apply (O (lit "VEVENT")). apply name_ok_spec. now vm_compute.
    + apply name_ok_spec. now vm_compute.
    + intros [r H]. discriminate H.
    + intros c r H K. injection H as <- _. apply is_key_char_spec in K. discriminate K.
Qed.

(** ** C40 *)
(** [wtree_text] leaves the case of the keywords open, line by line: every text of a tree is read alike. *)
Theorem C40_keyword_case : forall {U : Unicode} y t s1 s2, wtree_ok y t -> wtree_text y t s1 -> wtree_text y t s2 ->
  (y = Lf -> ~ has_crlf s1 /\ ~ has_crlf s2) ->
  read_components s1 = read_components s2 /\ read_calendar s1 = read_calendar s2 /\ read_component s1 = read_component s2
  /\ read_components s1 = Ok [wtree_read t].
Proof.
  intros U y t s1 s2 O T1 T2 C.
  pose proof (components_doc verror _ y t s1 [] O T1 bk_nil (fun Y => proj1 (C Y))) as Q1.
  pose proof (components_doc verror _ y t s2 [] O T2 bk_nil (fun Y => proj2 (C Y))) as Q2. cbn [app] in *.
  pose proof (proj1 (proj2 (proj2 (document_read y t s1 [] O T1 bk_nil (fun Y => proj1 (C Y)))))) as Q3.
  pose proof (proj1 (proj2 (proj2 (document_read y t s2 [] O T2 bk_nil (fun Y => proj2 (C Y)))))) as Q4. cbn [app] in *.
  unfold read_components, read_calendar. rewrite Q1, Q2, Q3, Q4. now repeat split.
Qed.
Print Assumptions C40_keyword_case.

Example C40_example : read_calendar some_doc_text = read_calendar (render CrLf some_doc) /\ some_doc_text <> render CrLf some_doc.
Proof.
  split; [|now vm_compute]. apply (C40_keyword_case CrLf some_doc).
  - exact some_doc_ok.
  - exact some_doc_written.
  - apply render_text.
  - discriminate.
Qed.

(** ** C45 *)
Theorem C45_inside : forall {U : Unicode} i,
  (forall e, read_components i = Err e -> Forall (fun l => suffix (fst l) i) e)
  /\ (forall e, read_calendar i = Err e -> Forall (fun l => suffix (fst l) i) e)
  /\ (forall e, read_component i = Err e -> Forall (fun l => suffix (fst l) i) e)
  /\ (forall e, read_property i = Err e -> Forall (fun l => suffix (fst l) i) e)
  /\ (forall e, read_parameter i = Err e -> Forall (fun l => suffix (fst l) i) e)
  /\ (forall e, read_calendar_simple i = Err e -> suffix (fst e) i)
  /\ (forall e, calendar_from_str i = Err e -> Forall (fun l => suffix (fst l) (unfold i)) e)
  /\ (forall e, cc_from_str i = Err e -> Forall (fun l => suffix (fst l) (unfold i)) e).
Proof. exact @errors_inside. Qed.
Print Assumptions C45_inside.

Example C45_example : exists l, read_components (lit "BEGIN:A" ++ [LF] ++ lit "END:B") = Err l
  /\ map fst l = [lit "B"; lit "B"].
Proof. eexists. split; now vm_compute. Qed.

(** ** C46 *)
Theorem C46_left_to_right : forall {U : Unicode} {E} {PE : PErr E} i r,
  (forall c, component_p (E := E) i = IOk r c -> suffix r i /\ comp_keyed c)
  /\ (forall cs, components_p (E := E) i = IOk r cs -> suffix r i /\ Forall comp_keyed cs)
  /\ (forall p, property_p (E := E) i = IOk r p -> suffix r i /\ prop_keyed p)
  /\ (forall q, parameter_p (E := E) i = IOk r q -> suffix r i /\ param_keyed q).
Proof. exact @rests. Qed.
Print Assumptions C46_left_to_right.

Example C46_example : component_p (E := verror) (lit "BEGIN:A" ++ [LF] ++ lit "x,/:1" ++ [LF] ++ lit "END:A rest")
  = IOk (lit " rest") (mk_pcomp (lit "A") [mk_pprop (lit "x,/") (lit "1") []] []).
Proof. now vm_compute. Qed.

(** ** C50 *)
Theorem C50_tree : forall {U : Unicode} y t s b, wtree_ok y t -> wtree_text y t s -> breaks b -> (y = Lf -> ~ has_crlf s) ->
  read_components (b ++ s) = Ok [wtree_read t] /\ read_calendar_simple (b ++ s) = Ok [wtree_read t]
  /\ read_component (b ++ s) = Ok (wtree_read t)
  /\ (pc_name (wtree_read t) = lit "VCALENDAR" ->
      read_calendar (b ++ s) = Ok (mk_pcal (pc_props (wtree_read t)) (pc_comps (wtree_read t)))).
Proof. exact @document_read. Qed.
Print Assumptions C50_tree.

Example C50_example : wtree_ok CrLf some_doc /\ wtree_text CrLf some_doc some_doc_text /\
  wtree_read some_doc =
    mk_pcomp (lit "VCALENDAR") [mk_pprop (lit "PRODID") (lit "x") []; mk_pprop (lit "X-FLAG") [] []]
      [mk_pcomp (lit "VEVENT")
        [mk_pprop (lit "DTSTART") (lit "20240101T000000") [mk_pparam (lit "TZID") (Some (lit "a:b")); mk_pparam (lit "X") None];
         mk_pprop (lit "SUMMARY") (lit "a, b") []] []].
Proof. split; [exact some_doc_ok|]. split; [exact some_doc_written|]. now vm_compute. Qed.

(** ** C51 *)
(** Every accepted text follows the line grammar [comp_taken]: nothing in it is skipped, and the parsed tree is
    what the lines say. *)
Theorem C51_grammar : forall {U : Unicode} i c, read_components i = Ok [c] -> comp_taken c i [].
Proof. intros U i c H. apply accepted in H as [H|(d & H & T)]; [discriminate H|]. now injection H as ->. Qed.
Print Assumptions C51_grammar.

Example C51_example : read_components some_doc_text = Ok [wtree_read some_doc].
Proof. now vm_compute. Qed.

(** ** C52 *)
(** [read_calendar_simple] and [read_components] give the same components; if they fail, the simple error is the
    innermost entry of the verbose one. *)
Theorem C52_error_types : forall {U : Unicode} i,
  match read_calendar_simple i, read_components i with
  | Ok a, Ok b => a = b
  | Err (l, k), Err v => exists t, v = (l, VNom k) :: t
  | _, _ => False
  end.
Proof. exact @simple_verbose. Qed.
Print Assumptions C52_error_types.

Example C52_example : read_calendar_simple (lit "BEGIN:A" ++ [LF] ++ lit "END:B") = Err (lit "B", KTag).
Proof. now vm_compute. Qed.
