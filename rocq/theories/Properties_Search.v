(** C93: the work of looking for the ends of values. *)
From Verif Require Import Str StrFacts Spec ValueTypes Property Chrono DateTime Component Calendar Nom Parser SpecDoc SpecItems SpecGrammar
  ParserProofs DocProofs Cost SpecCost SpecCalls CostProofs CallsProofs Search SpecSearch SearchProofs SearchDocProofs Properties_Build.
From Coq Require Import ZifyBool ZifyNat ZifyN.

(** The parsers that count the places looked at read what the parser reads. *)
Theorem C93_same : forall {U : Unicode} i, snd (scomponents_p (E := verror) i) = components_p (E := verror) i.
Proof. intros U i. apply erases_scomponents. Qed.
Print Assumptions C93_same.

(** The count of a document. *)
Theorem C93_document : forall {U : Unicode} y t s b m, wtree_ok y t -> tree_looks y t s [] m -> breaks b -> (y = Lf -> ~ has_crlf s) ->
  looks_of (b ++ s) = m.
Proof. intros U y t s b m O T B C. now apply (components_looked y t). Qed.
Print Assumptions C93_document.
(** Every document has one. *)
Theorem C93_counted : forall {U : Unicode} y t s b, wtree_ok y t -> wtree_text y t s -> breaks b -> (y = Lf -> ~ has_crlf s) ->
  tree_looks y t s [] (looks_of (b ++ s)).
Proof.
  intros U y t s b O T B C. destruct (tree_looks_ex y t s T []) as [m M]. now rewrite (C93_document y t s b m O M B C).
Qed.
Print Assumptions C93_counted.

(** Part 1: a document with CR LF takes not more looks than it has characters. *)
Theorem C93_crlf_document_partial : forall {U : Unicode} t s b, wtree_ok CrLf t -> wtree_text CrLf t s -> breaks b ->
  looks_of (b ++ s) <= length s.
Proof. intros U t s b O T B. eapply tree_looks_crlf, (C93_counted CrLf t s b); easy. Qed.
Print Assumptions C93_crlf_document_partial.
(** Part 2: any text with a CR LF after its last colon takes at most so many for each character as the number of
    [begin:] in letters other than BEGIN allows. *)
Theorem C93_ahead_partial : forall {U : Unicode} i, crlf_ahead i -> looks_of i <= 2 ^ soft_begins i * (length i + 1).
Proof. intros U i C. now apply looks_ahead. Qed.
Print Assumptions C93_ahead_partial.
Lemma ended_ahead : forall s, crlf_ahead (s ++ [CR; LF]).
Proof.
  intros s a v H. assert (R : exists x, v = x ++ [CR; LF]).
  { destruct (exists_last (l := COLON :: v)) as (x & c & X); [easy|]. rewrite X, app_assoc in H.
    change [CR; LF] with ([CR] ++ [LF]) in H. rewrite app_assoc in H. apply app_inj_tail in H as [H <-].
    destruct x as [|d x]; [discriminate X|]. injection X as <- ->. destruct (exists_last (l := COLON :: x)) as (z & c & Z); [easy|].
    rewrite Z, app_assoc in H. apply app_inj_tail in H as [H <-]. destruct z as [|d z]; [discriminate Z|]. injection Z as _ ->.
    exists z. now rewrite <- app_assoc. }
  destruct R as [x ->]. now exists x, [].
Qed.
Theorem C93_ended_partial : forall {U : Unicode} s, looks_of (s ++ [CR; LF]) <= 2 ^ soft_begins (s ++ [CR; LF]) * (length s + 3).
Proof.
  intros U s. pose proof (C93_ahead_partial (s ++ [CR; LF]) (ended_ahead s)) as H. rewrite app_length in H. cbn [length] in H.
  now replace (length s + 3) with (length s + 2 + 1) by lia.
Qed.
Print Assumptions C93_ended_partial.
(** Part 3: whatever the text, at most twice its length for each call of the component parser (C74). *)
Theorem C93_bound_partial : forall {U : Unicode} i, looks_of i <= 2 * (length i + 1) * calls_of i.
Proof. intros U i. apply looks_calls. Qed.
Print Assumptions C93_bound_partial.

(** What is wrong: each value of a document with LF is looked for in all that follows. *)
Theorem C93_lf : forall {U : Unicode} t s b, wtree_ok Lf t -> wtree_text Lf t s -> breaks b -> ~ has_crlf s ->
  value_lines t * value_lines t <= looks_of (b ++ s).
Proof.
  intros U t s b O T B C. pose proof (C93_counted Lf t s b O T B (fun _ => C)) as M. apply tree_looks_lf in M as [M _]. lia.
Qed.
Print Assumptions C93_lf.

(** Short lines with LF. *)
Definition short_line : wline := LValue (lit "A") [] [].
Definition short_tree (k : nat) : wtree := W (lit "VCALENDAR") (repeat (inl short_line) k).
Definition short_lines (k : nat) : str := concat (repeat (lit "A:" ++ [LF]) k).
Definition short_doc (k : nat) : str := lit "BEGIN:" ++ lit "VCALENDAR" ++ [LF] ++ short_lines k ++ lit "END:" ++ lit "VCALENDAR" ++ [LF].
Lemma short_text : forall k, wtree_text Lf (short_tree k) (short_doc k).
Proof.
  intros k. assert (L : line_end Lf [LF]) by now exists 0. apply W_text; try easy.
  induction k as [|k IH]; [constructor|]. cbn [repeat]. constructor; [|exact IH]. constructor. now exists [LF].
Qed.
Lemma short_ok : forall {U : Unicode} k, wtree_ok Lf (short_tree k).
Proof.
  intros U k. constructor; [now apply name_ok_spec|]. induction k as [|k IH]; [constructor|]. cbn [repeat]. constructor; [|exact IH]. constructor.
  split; [|split; [constructor|easy]]. now apply prop_name_okb_spec.
Qed.
Lemma short_length : forall k, length (short_doc k) = 3 * k + 30.
Proof.
  intros k. unfold short_doc. rewrite !app_length. assert (length (short_lines k) = 3 * k) as ->; [|cbn; lia].
  unfold short_lines. induction k as [|k IH]; [easy|]. cbn [repeat concat]. rewrite app_length, IH. cbn [lit app length]. cbn. lia.
Qed.
Lemma short_no_cr : forall k, ~ has_crlf (short_doc k).
Proof.
  intros k (a & b & H). assert (I : In CR (short_doc k)) by (rewrite H; apply in_or_app; right; now left). clear H. unfold short_doc in I.
  repeat (apply in_app_or in I as [I|I]; try (vm_compute in I; intuition discriminate)).
  unfold short_lines in I. apply in_concat in I as (s & S & I). apply repeat_spec in S as ->. vm_compute in I; intuition discriminate.
Qed.
Lemma short_values : forall k, value_lines (short_tree k) = k.
Proof.
  intros k. unfold short_tree. rewrite value_lines_eq. induction k as [|k IH]; [easy|]. cbn [repeat map]. change (list_sum (?a :: ?l)) with (a + list_sum l).
  cbn [list_sum fold_right] in *. now rewrite IH.
Qed.
(** The claim is false: the work of these documents, which are read, is the square of their number of lines. *)
Theorem C93_quadratic : forall {U : Unicode} k, length (short_doc k) = 3 * k + 30
  /\ read_components (short_doc k) = Ok [wtree_read (short_tree k)] /\ k * k <= looks_of (short_doc k).
Proof.
  intros U k. split; [apply short_length|]. split.
  - apply (document_read Lf (short_tree k) (short_doc k) [] (short_ok k) (short_text k) bk_nil (fun _ => short_no_cr k)).
  - pose proof (C93_lf (short_tree k) (short_doc k) [] (short_ok k) (short_text k) bk_nil (short_no_cr k)) as H. now rewrite short_values in H.
Qed.
Print Assumptions C93_quadratic.
Theorem C93_refuted : forall {U : Unicode} c, exists i t, read_components i = Ok [t] /\ c * (length i + 1) < looks_of i.
Proof.
  intros U c. destruct (C93_quadratic (34 * c + 1)) as (L & R & Q). exists (short_doc (34 * c + 1)). eexists. split; [exact R|]. rewrite L. nia.
Qed.
Print Assumptions C93_refuted.

Section C93.
Local Existing Instance some_unicode.
Definition looked_doc : wtree := W (lit "VCALENDAR") [inl (LValue (lit "VERSION") [] (lit "2.0")); inr (W (lit "VEVENT") [inl (LBare (lit "X-B")); inl (LValue (lit "UID") [] (lit "abc"))])].
Definition looked_text (e : str) : str :=
  concat (map (fun l => lit l ++ e) ["BEGIN:VCALENDAR"; "VERSION:2.0"; "begin:VEVENT"; "X-B"; "UID:abc"; "End:VEVENT"; "END:VCALENDAR"]%string).
Lemma looked_is : forall y e, line_end y e -> wtree_text y looked_doc (looked_text e).
Proof.
  intros y e L. assert (V : forall l, either2 (fun l s => exists e, line_end y e /\ s = wline_text l ++ e) (wtree_text y) (inl l) (wline_text l ++ e)).
  { intros l. constructor. now exists e. }
  pose proof (W_text y (lit "VEVENT") _ (lit "begin:") (lit "End:") _ _ _ eq_refl eq_refl L L
    (Forall2_cons _ _ (V (LBare (lit "X-B"))) (Forall2_cons _ _ (V (LValue (lit "UID") [] (lit "abc"))) (Forall2_nil _)))) as T2.
  pose proof (W_text y (lit "VCALENDAR") _ (lit "BEGIN:") (lit "END:") _ _ _ eq_refl eq_refl L L
    (Forall2_cons _ _ (V (LValue (lit "VERSION") [] (lit "2.0"))) (Forall2_cons _ _ (e2_r _ _ _ _ T2) (Forall2_nil _)))) as T.
  unfold looked_text, looked_doc. cbn [concat map app] in *. rewrite <- !app_assoc in *. rewrite app_nil_r. exact T.
Qed.
(** The same calendar takes 8 looks with CR LF, and 93 with LF. *)
Example C93_document_example : wtree_ok CrLf looked_doc /\ wtree_ok Lf looked_doc /\ wtree_text CrLf looked_doc (looked_text [CR; LF])
  /\ wtree_text Lf looked_doc (looked_text [LF]) /\ ~ has_crlf (looked_text [LF])
  /\ length (looked_text [CR; LF]) = 85 /\ looks_of (looked_text [CR; LF]) = 8 /\ looks_of (looked_text [LF]) = 93 /\ value_lines looked_doc = 2.
Proof.
  split; [apply wtree_okb_spec; now vm_compute|]. split; [apply wtree_okb_spec; now vm_compute|].
  split; [apply looked_is; exists []; split; [easy|constructor]|]. split; [apply looked_is; now exists 0|]. split; [|now vm_compute].
  intros (a & b & H). assert (I : In CR (looked_text [LF])) by (rewrite H; apply in_or_app; right; now left).
  vm_compute in I. intuition discriminate.
Qed.
(** A text of no document that ends with CR LF. *)
Example C93_ahead_example : let i := lit "begin:A" ++ [LF] ++ lit "X:1" ++ [LF] ++ lit "Y:2" ++ [CR; LF] in
  crlf_ahead i /\ looks_of i = 6 /\ 2 ^ soft_begins i * (length i + 1) = 36 /\ calls_of i = 3.
Proof.
  cbv zeta. split; [|now vm_compute]. apply (ended_ahead (lit "begin:A" ++ [LF] ++ lit "X:1" ++ [LF] ++ lit "Y:2")).
Qed.
Example C93_quadratic_example : map (fun k => looks_of (short_doc k)) [1; 10; 20; 40] = [17; 305; 910; 3020].
Proof. now vm_compute. Qed.
End C93.
