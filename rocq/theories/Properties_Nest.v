(** C95: how deep the parser calls itself. *)
From Verif Require Import Str Spec ValueTypes Property Chrono DateTime Component Calendar Nom Parser SpecDoc SpecItems SpecGrammar SpecSerde SpecNest
  ParserProofs DocProofs NestProofs Properties_Build Properties_Calls.
From Coq Require Import ZifyBool ZifyNat ZifyN.

(** The parser with room for [f] nested calls runs out of it exactly at the texts that take more ... *)
Theorem C95_exact : forall {U : Unicode} {E : Type} {PE : PErr E} f i, component (E := E) f i = IFuel <-> text_deep (S f) i.
Proof. intros U E PE f i. apply fuel_deep. Qed.
(** ... and does otherwise what it does with any room. *)
Theorem C95_enough : forall {U : Unicode} {E : Type} {PE : PErr E} f i, ~ text_deep (S f) i -> component (E := E) f i = component_p i.
Proof. intros U E PE f i H. now destruct (enough_calls (E := E) f i). Qed.

(** On a document the depth is that of its nesting. *)
Theorem C95_document : forall {U : Unicode} y t s b rest d, wtree_ok y t -> wtree_text y t s -> breaks b -> no_break_next rest ->
  (y = Lf -> ~ has_crlf (s ++ rest)) -> 1 <= d -> text_deep d (b ++ s ++ rest) <-> d <= levels t.
Proof.
  intros U y t s b rest [|f] O T B R C L; [lia|]. rewrite <- (fuel_deep (E := verror)).
  rewrite (document_levels y t O s T b rest f B) by (try easy; now apply no_break_spec). lia.
Qed.
(** Whatever is read is nested no deeper than the calls were. *)
Theorem C95_height : forall {U : Unicode} {E : Type} {PE : PErr E} f i r c, component (E := E) f i = IOk r c -> comp_depth c <= f.
Proof. intros U E PE f i r c. apply read_height. Qed.

(** A call takes seven characters, and no fewer will do. *)
Theorem C95_bound : forall {U : Unicode} d i, text_deep d i -> 7 * d <= length i + 8.
Proof. intros U d i. apply size_deep. Qed.
Theorem C95_tight : forall {U : Unicode} d, 2 <= d -> exists i, text_deep d i /\ 7 * d = length i + 8.
Proof.
  intros U d L. exists (begun (d - 2)). split; [|rewrite begun_length; lia]. exists (begun (d - 2)). split.
  - exists []. split; [constructor|]. split; [easy|]. apply no_break_spec. now destruct (d - 2).
  - pose proof (begun_deep (d - 2)) as H. now replace (d - 2 + 2) with d in H by lia.
Qed.
Print Assumptions C95_exact.
Print Assumptions C95_enough.
Print Assumptions C95_document.
Print Assumptions C95_height.
Print Assumptions C95_bound.
Print Assumptions C95_tight.

Section C95.
Local Existing Instance some_unicode.
(** Three components in one another and a line in the innermost; an end tag is missing in [unended], where all levels are tried again. *)
Definition unended : str := lit "BEGIN:A" ++ [LF] ++ lit "BEGIN:B" ++ [LF] ++ lit "X:1" ++ [LF] ++ lit "END:A" ++ [LF].
Definition is_fuel {E A} (r : ires E A) : bool := match r with IFuel => true | _ => false end.
Example C95_exact_example : levels parts_doc = 4 /\ comp_depth (wtree_read parts_doc) = 3
  /\ map (fun f => is_fuel (component (E := verror) f parts_some)) [0; 1; 2; 3; 4; 5] = [true; true; true; true; false; false]
  /\ map (fun f => is_fuel (component (E := verror) f unended)) [0; 1; 2; 3; 4] = [true; true; true; false; false]
  /\ map (fun f => is_fuel (component (E := verror) f (lit "X:1"))) [0; 1] = [true; false]
  /\ begun 1 = lit "BEGIN:" ++ [LF] ++ lit "BEGIN:" /\ map (fun f => is_fuel (component (E := verror) f (begun 1))) [0; 1; 2; 3] = [true; true; true; false].
Proof. now vm_compute. Qed.
Example C95_document_example : text_deep 4 parts_some /\ ~ text_deep 5 parts_some.
Proof.
  assert (H : forall d, 1 <= d -> text_deep d ([] ++ parts_some ++ []) <-> d <= levels parts_doc).
  { intros d L. destruct C74_document_example as (O & T & _). apply (C95_document CrLf); try easy; [constructor|]. now apply no_break_spec. }
  rewrite app_nil_r in H. cbn [app] in H. split; [apply H; [lia|]|intros K; apply H in K; [|lia]; revert K]; now vm_compute; try lia.
Qed.
End C95.
