(** What a change of a document changes in the calendar: C104. *)
From Verif Require Import Str StrFacts Spec Fold UnfoldProofs Text ValueTypes Property Chrono DateTime Component Alarm Calendar Nom Parser
  SpecBuild SpecDate SpecTree SpecDoc SpecConv SpecRound SpecNear BuildProofs TreeProofs ParserProofs DocProofs NearProofs Properties_Build.

(** C104. Lines that are replaced, added or removed in one place of a document, at any depth: the calendars that are read differ in the
    properties of these lines and in nothing else.  The documents may be folded differently, and have different line ends, blank lines
    and cases of the keywords. *)
Theorem C104_documents : forall {U : Unicode} ls ls' t t' y y' s s' u u' b b', doc_edit ls ls' t t' ->
  wtree_ok y t -> wtree_text y t u -> breaks b -> (y = Lf -> ~ has_crlf u) -> unfolds s (b ++ u) ->
  wtree_ok y' t' -> wtree_text y' t' u' -> breaks b' -> (y' = Lf -> ~ has_crlf u') -> unfolds s' (b' ++ u') ->
  exists c d old new, calendar_from_str s = Ok c /\ calendar_from_str s' = Ok d
    /\ Forall2 says (map wline_read ls) old /\ Forall2 says (map wline_read ls') new /\ cal_near old new c d.
Proof. exact @docs_near. Qed.
Print Assumptions C104_documents.
(** The same as a change of the text: the text of the lines is found in the document, and any other lines may stand there. *)
Theorem C104_text : forall {U : Unicode} y ls ls' t t' u, doc_edit ls ls' t t' -> wtree_ok y t -> wtree_text y t u -> (y = Lf -> ~ has_crlf u) ->
  Forall (wline_ok y) ls' ->
  exists x m z, u = x ++ m ++ z /\ lines_text y ls m
    /\ forall m' b b' s s', lines_text y ls' m' -> (y = Lf -> ~ has_crlf (x ++ m' ++ z)) -> breaks b -> breaks b' ->
         unfolds s (b ++ x ++ m ++ z) -> unfolds s' (b' ++ x ++ m' ++ z) ->
         exists c d old new, calendar_from_str s = Ok c /\ calendar_from_str s' = Ok d
           /\ Forall2 says (map wline_read ls) old /\ Forall2 says (map wline_read ls') new /\ cal_near old new c d.
Proof. exact @text_edit. Qed.
Print Assumptions C104_text.
(** So properties with other names are read as before, and there are as many sub-components, of the same kinds. *)
Theorem C104_others : forall old new i j k, inner_near old new i j -> others (old ++ new) k ->
  property_value i k = property_value j k /\ map_get k (i_multi i) = map_get k (i_multi j) /\ map fst (i_comps i) = map fst (i_comps j).
Proof.
  intros old new i j k N O. unfold property_value. destruct N as [i j a b H _ _ C|ps ms a n x z b _].
  - destruct (H k O) as [-> ->]. now rewrite C.
  - cbn [i_props i_multi i_comps]. rewrite !map_app. easy.
Qed.
Print Assumptions C104_others.
Theorem C104_other_components : forall old new c d, cal_near old new c d ->
  map cc_kind (c_comps c) = map cc_kind (c_comps d)
  /\ exists a x y b, (c_comps c = a ++ x ++ b /\ c_comps d = a ++ y ++ b) /\ length x = length y /\ length x <= 1.
Proof.
  intros old new c d [a b cs|ps a x y b N]; cbn [c_comps].
  - split; [easy|]. exists cs, [], [], []. cbn. rewrite app_nil_r. split; [now split|]. split; [easy|lia].
  - split.
    + rewrite !map_app. cbn [map]. do 2 f_equal. destruct x as [i|i|i|[p i]], y as [j|j|j|[q j]]; try easy. destruct N as [-> _]. easy.
    + exists a, [x], [y], b. split; [now split|]. split; [easy|]. cbn. lia.
Qed.
Print Assumptions C104_other_components.
(** In a document with LF line ends a single CR LF is not such a change: the values of all lines before it run on up to there. *)
Definition count_props {U : Unicode} (s : str) : option nat := match calendar_from_str s with Ok c => Some (length (c_props c)) | _ => None end.
Theorem C104_mixed : exists x l z, wline_text l <> [] /\ forall (U : Unicode), wline_ok Lf l
  /\ count_props (x ++ (wline_text l ++ [LF]) ++ z) = Some 3 /\ count_props (x ++ (wline_text l ++ [CR; LF]) ++ z) = Some 2.
Proof.
  exists (lit "BEGIN:VCALENDAR" ++ [LF] ++ lit "A:1" ++ [LF]), (LValue (lit "B") [] (lit "2")), (lit "C:3" ++ [LF] ++ lit "END:VCALENDAR" ++ [LF]).
  split; [discriminate|]. intros U. split; [|split; vm_compute; reflexivity]. split; [now apply prop_name_okb_spec|]. split; [constructor|]. intros I. vm_compute in I. intuition discriminate.
Qed.
Print Assumptions C104_mixed.

(** In an event within a calendar, one attendee is replaced by another and a comment; the alarm, the summary and the attendees before and
    after stay. *)
Section Example104.
  Local Existing Instance some_unicode.
  Let line (k v : string) : wline := LValue (lit k) [] (lit v).
  Definition near_doc (ls : list wline) : wtree :=
    W (lit "VCALENDAR") ([inl (line "VERSION" "2.0")] ++ inr (W (lit "VEVENT") ([inl (line "ATTENDEE" "a"); inl (line "SUMMARY" "s"); inr (W (lit "VALARM") [inl (line "ACTION" "AUDIO")])]
      ++ map inl ls ++ [inl (line "ATTENDEE" "c")])) :: []).
  Definition old_lines : list wline := [line "ATTENDEE" "b"].
  Definition new_lines : list wline := [line "ATTENDEE" "d"; line "LOCATION" "e\, f"].
  Definition near_events (s : str) : list (list str * option str * option str * nat) :=
    match calendar_from_str s with
    | Ok c => map (fun x => (map p_val (multi_at (cc_inner x) (lit "ATTENDEE")), property_value (cc_inner x) (lit "SUMMARY"), property_value (cc_inner x) (lit "LOCATION"),
                            length (i_comps (cc_inner x)))) (c_comps c)
    | _ => []
    end.
  Example C104_example : doc_edit old_lines new_lines (near_doc old_lines) (near_doc new_lines)
    /\ wtree_ok CrLf (near_doc old_lines) /\ Forall (wline_ok CrLf) new_lines
    /\ (exists u, wtree_text CrLf (near_doc old_lines) u /\ unfolds u u)
    /\ near_events (render CrLf (near_doc old_lines)) = [([lit "a"; lit "b"; lit "c"], Some (lit "s"), None, 1)]
    /\ near_events (render CrLf (near_doc new_lines)) = [([lit "a"; lit "d"; lit "c"], Some (lit "s"), Some (lit "e, f"), 1)].
  Proof.
    split; [|split; [|split; [|split; [|split; vm_compute; reflexivity]]]].
    - unfold near_doc. apply de_below, de_here.
    - apply wtree_okb_spec. reflexivity.
    - constructor; [apply wline_okb_spec; reflexivity|]. constructor; [apply wline_okb_spec; reflexivity|constructor].
    - exists (render CrLf (near_doc old_lines)). split; [apply render_text|]. assert (E : unfold (render CrLf (near_doc old_lines)) = render CrLf (near_doc old_lines)) by (vm_compute; reflexivity). rewrite <- E at 2. apply unfold_unfolds.
  Qed.
End Example104.
