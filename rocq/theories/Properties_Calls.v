(** C74: the work of the parser on documents. *)
From Verif Require Import Str Spec ValueTypes Property Chrono DateTime Component Calendar Nom Parser SpecDoc SpecItems SpecGrammar
  ParserProofs DocProofs Cost SpecCost SpecCalls CostProofs CallsProofs Properties_Build.

(** A document takes one call for each of its components and lines and one for the end of the text, in whatever case BEGIN is written. *)
Theorem C74_document : forall {U : Unicode} y t s b, wtree_ok y t -> wtree_text y t s -> breaks b -> (y = Lf -> ~ has_crlf s) ->
  calls_of (b ++ s) = parts t + 1.
Proof. intros U y t s b O T B C. unfold calls_of. rewrite (components_calls (E := verror) y t) by easy. apply eq_sym, Nat.add_1_r. Qed.
Print Assumptions C74_document.

Section C74.
Local Existing Instance some_unicode.
Definition parts_doc : wtree := W (lit "VCALENDAR") [inl (LValue (lit "VERSION") [] (lit "2.0"));
  inr (W (lit "VEVENT") [inl (LBare (lit "X-B")); inr (W (lit "VALARM") [inl (LValue (lit "ACTION") [] (lit "AUDIO"))])])].
(** The same document with BEGIN in small letters everywhere. *)
Definition parts_some : str :=
  concat (map (fun l => lit l ++ [CR; LF]) ["begin:VCALENDAR"; "VERSION:2.0"; "begin:VEVENT"; "X-B"; "begin:VALARM"; "ACTION:AUDIO"; "end:VALARM"; "End:VEVENT"; "END:VCALENDAR"]%string).
Example C74_document_example : wtree_ok CrLf parts_doc /\ wtree_text CrLf parts_doc parts_some /\ parts parts_doc = 6 /\ soft_begins parts_some = 3
  /\ calls_of parts_some = 7.
Proof.
  assert (L : line_end CrLf [CR; LF]) by (exists []; now split; constructor).
  assert (V : forall l, either2 (fun l s => exists e, line_end CrLf e /\ s = wline_text l ++ e) (wtree_text CrLf) (inl l) (wline_text l ++ [CR; LF])).
  { intros l. constructor. now exists [CR; LF]. }
  assert (T : wtree_text CrLf parts_doc parts_some).
  { pose proof (W_text CrLf (lit "VALARM") _ (lit "begin:") (lit "end:") _ _ _ eq_refl eq_refl L L (Forall2_cons _ _ (V (LValue (lit "ACTION") [] (lit "AUDIO"))) (Forall2_nil _))) as T1.
    pose proof (W_text CrLf (lit "VEVENT") _ (lit "begin:") (lit "End:") _ _ _ eq_refl eq_refl L L
      (Forall2_cons _ _ (V (LBare (lit "X-B"))) (Forall2_cons _ _ (e2_r _ _ _ _ T1) (Forall2_nil _)))) as T2.
    exact (W_text CrLf (lit "VCALENDAR") _ (lit "begin:") (lit "END:") _ _ _ eq_refl eq_refl L L
      (Forall2_cons _ _ (V (LValue (lit "VERSION") [] (lit "2.0"))) (Forall2_cons _ _ (e2_r _ _ _ _ T2) (Forall2_nil _)))). }
  split; [apply wtree_okb_spec; now vm_compute|]. split; [exact T|]. now vm_compute.
Qed.
End C74.
