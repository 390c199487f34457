(** The work of the parser. *)
From Verif Require Import Str StrFacts Spec ValueTypes Property Chrono DateTime Component Calendar Nom Parser SpecDoc SpecItems SpecGrammar
  RejectProofs Cost SpecCost CostProofs DepthProofs Properties_Build.
From Coq Require Import ZifyBool ZifyNat ZifyN.

(** C74: the calls of [component] (src/parser/components.rs:247) that a reader makes. *)

(** The counted parsers are those of Parser.v. *)
Theorem C74_same : forall {U : Unicode} i,
  cread_calendar i = read_calendar i /\ finish (snd (ccomponents_p i)) = read_components i.
Proof. intros U i. unfold cread_calendar, read_calendar, read_components. now rewrite erases_components. Qed.
Print Assumptions C74_same.

(** [8 * k] characters can take [2 ^ k] calls. *)
Theorem C74_exponential_refuted : forall {U : Unicode} k, exists i,
  length i = 8 * k /\ calls_of i = 2 ^ k /\ read_calendar i = Ok (mk_pcal [] []).
Proof.
  intros U k. exists (begins_only k). split; [apply only_length|]. destruct (only_components (E := verror) k) as [A B].
  split; [exact A|]. unfold read_calendar. now rewrite B.
Qed.
Print Assumptions C74_exponential_refuted.

(** No multiple of the length bounds the calls. *)
Theorem C74_refuted : forall {U : Unicode}, ~ exists c, forall i, calls_of i <= c * (length i + 1).
Proof.
  intros U [c H]. destruct (C74_exponential_refuted (2 * (16 * c))) as (i & L & N & _). specialize (H i). rewrite L, N in H.
  rewrite (Nat.mul_comm 2 (16 * c)), Nat.pow_mul_r in H. change ((2 ^ (16 * c)) ^ 2) with (2 ^ (16 * c) * (2 ^ (16 * c) * 1)) in H.
  pose proof (Nat.pow_gt_lin_r 2 (16 * c) ltac:(lia)). nia.
Qed.
Print Assumptions C74_refuted.

(** Only [begin:] outside capitals multiplies the work: each place where it stands at most doubles it. *)
Theorem C74_bound_partial : forall {U : Unicode} i, calls_of i <= 2 ^ soft_begins i * (length i + 1).
Proof. intros U i. exact (components_bound (E := verror) i). Qed.
Print Assumptions C74_bound_partial.

(** With BEGIN in capitals only, the work is proportional to the length. *)
Theorem C74_capitals_partial : forall {U : Unicode} i,
  (forall a r, i = a ++ r -> begins r -> has_prefix (lit "BEGIN:") r) -> calls_of i <= length i + 1.
Proof. intros U i H. pose proof (C74_bound_partial i) as B. rewrite (proj2 (soft_none_iff i) H) in B. cbn [Nat.pow] in B. lia. Qed.
Print Assumptions C74_capitals_partial.

(** C34. The recursion is at most as deep as there are places where [begin:] stands, in any case, and one call more; that
    depth is needed by some texts. *)
Theorem C34_depth_partial : forall {U : Unicode},
  (forall i depth, begin_places i < depth -> component (E := verror) depth i = component_p i)
  /\ (forall k, exists i, begin_places i = k /\ component (E := verror) k i = IFuel).
Proof.
  intros U. split; [intros i f H; now apply depth_enough|]. intros k. exists (nested_begins k). split; [|now apply depth_needed].
  unfold nested_begins. induction k as [|k IH]; [easy|]. cbn [repeat concat].
  revert IH. generalize (concat (repeat (lit "BEGIN:A" ++ [CR; LF]) k)). intros s <-. reflexivity.
Qed.
Print Assumptions C34_depth_partial.

Section Examples.
  Local Existing Instance some_unicode.
  Example C74_example_many : calls_of (lit "begin:b
begin:b
begin:b
begin:b
begin:b
") = 32.
  Proof. reflexivity. Qed.
  Definition plain_doc : str := lit "BEGIN:VCALENDAR
BEGIN:VEVENT
SUMMARY:x
END:VEVENT
END:VCALENDAR
".
  Example C74_example : soft_begins plain_doc = 0 /\ calls_of plain_doc = 4.
  Proof. split; reflexivity. Qed.
  Example C74_example_capitals : forall a r, plain_doc = a ++ r -> begins r -> has_prefix (lit "BEGIN:") r.
  Proof. now apply soft_none_iff. Qed.
End Examples.
