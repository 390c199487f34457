(** Exact conditions for C15. *)
From Verif Require Import Str StrFacts Spec ValueTypes Property Chrono DateTime Component Calendar Nom Parser SpecDoc SpecCut SpecMixed
  ParserProofs DocProofs MixedProofs Properties_Build Properties_Cut.

(** ** C15 *)
(** Each line with its own line breaks: the text is read as the document says if and only if, after a line with a value that ends in LF, there
    is no CR LF any more.  Lines without a value, BEGIN, END and empty lines may end either way before that. *)
Theorem C15_mixed_exact : forall {U : Unicode} t fs s, wtree_ok CrLf t -> mixed t fs s -> (read_component s = Ok (wtree_read t) <-> lf_final fs).
Proof. exact @mixed_exact. Qed.
Print Assumptions C15_mixed_exact.

Section C15.
Local Existing Instance some_unicode.
Definition mixed_doc : wtree := W (lit "VCALENDAR") [inl (LBare (lit "X-B")); inl (LValue (lit "VERSION") [] (lit "2.0")); inr (W (lit "VEVENT") [inl (LValue (lit "UID") [] (lit "a\nb"))])].
(** LF after the first lines and the last value, CR LF between. *)
Definition mixed_some (z : str) : str :=
  lit "BEGIN:VCALENDAR" ++ [LF] ++ lit "X-B" ++ [LF] ++ lit "VERSION:2.0" ++ [CR; LF] ++ lit "begin:VEVENT" ++ [LF; CR; LF]
  ++ lit "UID:a\nb" ++ [LF] ++ lit "END:VEVENT" ++ [LF] ++ lit "END:VCALENDAR" ++ z.
Example C15_mixed_example : wtree_ok CrLf mixed_doc
  /\ (exists fs, mixed mixed_doc fs (mixed_some [LF]) /\ lf_final fs) /\ (exists fs, mixed mixed_doc fs (mixed_some [CR; LF]) /\ ~ lf_final fs)
  /\ read_component (mixed_some [LF]) = Ok (wtree_read mixed_doc) /\ read_component (mixed_some [CR; LF]) <> Ok (wtree_read mixed_doc).
Proof.
  assert (M : forall y, mixed mixed_doc [(false, Lf); (false, Lf); (true, CrLf); (false, Lf); (false, CrLf); (true, Lf); (false, Lf); (false, y)] (mixed_some (brk y))).
  { intros y. assert (T : forall l, existsb (fun c => N.eqb c LF || N.eqb c CR) (wline_text l) = false -> tidy l).
    { intros l H. assert (Q : forall c, In c (wline_text l) -> c <> LF /\ c <> CR).
      { intros c I. rewrite <- not_true_iff_false, existsb_exists in H. split; intros ->; apply H; [exists LF|exists CR]; easy. }
      split; [intros I; now apply Q in I|]. intros x E. assert (I : In CR (wline_text l)) by (rewrite E, in_app_iff; right; now left). now apply Q in I. }
    assert (Nn : forall (a : style) b, a :: b <> []) by easy.
    pose proof (mx_line (LValue (lit "UID") [] (lit "a\nb")) [Lf] [] [] [] (T (LValue (lit "UID") [] (lit "a\nb")) eq_refl) (Nn _ _) mx_nil) as M1.
    pose proof (mx_tree (lit "VEVENT") _ (lit "begin:") (lit "END:") [Lf; CrLf] [Lf] _ _ eq_refl eq_refl (Nn _ _) (Nn _ _) M1) as M2.
    pose proof (mx_sub _ [] _ _ [] [] M2 mx_nil) as M3.
    pose proof (mx_line (LValue (lit "VERSION") [] (lit "2.0")) [CrLf] _ _ _ (T (LValue (lit "VERSION") [] (lit "2.0")) eq_refl) (Nn _ _) M3) as M4.
    pose proof (mx_line (LBare (lit "X-B")) [Lf] _ _ _ (T (LBare (lit "X-B")) eq_refl) (Nn _ _) M4) as M5.
    pose proof (mx_tree (lit "VCALENDAR") _ (lit "BEGIN:") (lit "END:") [Lf] [y] _ _ eq_refl eq_refl (Nn _ _) (Nn _ _) M5) as M6.
    destruct y; exact M6. }
  assert (O : wtree_ok CrLf mixed_doc) by (apply wtree_okb_spec; now vm_compute).
  assert (L : lf_final [(false, Lf); (false, Lf); (true, CrLf); (false, Lf); (false, CrLf); (true, Lf); (false, Lf); (false, Lf)]).
  { intros a b E. do 5 (destruct a as [|? a]; [discriminate E|injection E as <- E]). destruct a as [|? a]; [injection E as <-; cbn; intuition discriminate|injection E as <- E].
    do 2 (destruct a as [|? a]; [discriminate E|injection E as <- E]). destruct a; discriminate E. }
  assert (L' : ~ lf_final [(false, Lf); (false, Lf); (true, CrLf); (false, Lf); (false, CrLf); (true, Lf); (false, Lf); (false, CrLf)]).
  { intros H. apply (H [(false, Lf); (false, Lf); (true, CrLf); (false, Lf); (false, CrLf)] [(false, Lf); (false, CrLf)]); [easy|]. cbn. tauto. }
  split; [exact O|]. split; [eexists; split; [exact (M Lf)|exact L]|]. split; [eexists; split; [exact (M CrLf)|exact L']|].
  split; [now apply (C15_mixed_exact _ _ _ O (M Lf))|]. rewrite (C15_mixed_exact _ _ _ O (M CrLf)). exact L'.
Qed.
End C15.
