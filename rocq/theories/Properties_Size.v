(** C85, C86: the length of the text and the work of folding. *)
From Verif Require Import Str StrFacts Spec Fold FoldCost Text ValueTypes Property Chrono DateTime Component Calendar Nom Parser
  SpecBuild SpecDate SpecTree SpecDoc SpecRound SpecText SpecFold SpecSize FoldProofs TreeProofs WrittenProofs CutProofs SizeProofs Properties_Build Properties_Round.
From Coq Require Import ZifyBool ZifyNat ZifyN.

(** C85.  A property: three octets for each place where the line is cut, two for its end; the line holds its data once,
    and at most twice that and four octets for the property and for each parameter. *)
Theorem C85_property : forall {U : Unicode} p s, prop_write p = Ret s -> exists l n, line_written p l
  /\ octets s = octets l + 3 * n + 2 /\ n <= octets l
  /\ prop_data p + prop_items p <= octets l <= 2 * prop_data p + 4 * prop_items p.
Proof.
  intros U p s W. apply prop_cut in W as (l & L & C). destruct (cut_size l s C) as (n & E & B). exists l, n. split; [easy|]. split; [easy|]. split; [easy|].
  now apply line_size.
Qed.
Print Assumptions C85_property.
(** An ASCII line is cut at most once in 73 octets. *)
Theorem C85_ascii : forall {U : Unicode} p l, line_written p l -> Forall (fun c => non_ascii c = false) l ->
  exists s n, prop_write p = Ret s /\ octets s = octets l + 3 * n + 2 /\ 73 * n <= octets l.
Proof.
  intros U p l L A. destruct (fold_ascii l A) as (ps & last & C & F). exists (join_fold ps last ++ [CR; LF]), (length ps).
  pose proof (ascii_cuts 75 l ps last C [] ltac:(now right) A) as K. cbn [app length Nat.add] in K. split.
  - apply prop_cut. exists l. split; [easy|]. now exists ps, last.
  - apply cuts_cat in K. cbn [app] in K. rewrite octets_app, join_size, <- K. change (octets [CR; LF]) with 2. split; [lia|].
    rewrite ascii_octets by easy. apply ascii_few in C; [easy|now right].
Qed.
Print Assumptions C85_ascii.
(** A component and a calendar. *)
Theorem C85_component : forall {U : Unicode} e c n s m, clock_ok e -> cc_write e c n = Ret (s, m) ->
  cc_data c + inner_items (cc_inner c) <= octets s <= 8 * cc_data c + 90 * inner_items (cc_inner c).
Proof. exact @cc_size. Qed.
Print Assumptions C85_component.
Theorem C85_calendar : forall {U : Unicode} e c s, clock_ok e -> cal_write e c = Ret s ->
  cal_data c + cal_items c <= octets s <= 8 * cal_data c + 90 * cal_items c.
Proof. exact @cal_size. Qed.
Print Assumptions C85_calendar.

Section Examples.
  Local Existing Instance some_unicode.
  (** A line of 83 octets with one escaped character, cut once; a calendar. *)
  Example C85_example :
    (let p := mk_property (lit "SUMMARY") (repeat 97%N 60 ++ lit ",") [(lit "ALTREP", lit "x:y")] in
     prop_data p = 77 /\ prop_items p = 2 /\ exists s, prop_write p = Ret s /\ octets s = 77 + 4 + 1 + 1 + 3 + 2)
    /\ exists s, cal_write some_env some_cal = Ret s /\ cal_data some_cal + cal_items some_cal <= octets s.
  Proof.
    split.
    - cbn zeta. split; [reflexivity|]. split; [reflexivity|]. eexists. split; [vm_compute; reflexivity|]. vm_compute. reflexivity.
    - eexists. split; [vm_compute; reflexivity|]. apply Nat.leb_le. vm_compute. reflexivity.
  Qed.
End Examples.

(** C86.  The work of folding a line is not proportional to its length: it grows with its square. *)
Theorem C86_quadratic_refuted : forall k, exists l s, fold_line l = Ret s /\ length l = 151 + 74 * k /\ 37 * k * k <= fold_work l.
Proof.
  intros k. exists (as_line (75 + 76 + 74 * k)). destruct (fold_ascii _ (as_ascii (75 + 76 + 74 * k))) as (ps & last & _ & F). eexists. split; [exact F|].
  split; [apply repeat_length|apply as_work].
Qed.
Print Assumptions C86_quadratic_refuted.
Theorem C86_refuted : ~ exists c, forall l s, fold_line l = Ret s -> fold_work l <= c * (length l + 1).
Proof.
  intros [c H]. destruct (C86_quadratic_refuted (152 + 8 * c)) as (l & s & F & L & W). specialize (H l s F). rewrite L in H.
  assert (37 * (152 + 8 * c) * (152 + 8 * c) <= c * (151 + 74 * (152 + 8 * c) + 1)) by lia. nia.
Qed.
Print Assumptions C86_refuted.
(** It grows no faster than that. *)
Theorem C86_bound_partial : forall l s, fold_line l = Ret s -> fold_work l <= 76 * octets l * length l.
Proof. exact work_le. Qed.
Print Assumptions C86_bound_partial.
Theorem C86_ascii_partial : forall l, Forall (fun c => non_ascii c = false) l -> 73 * fold_work l <= length l * length l.
Proof. exact ascii_work. Qed.
Print Assumptions C86_ascii_partial.

(** Lines of up to 75 octets take no work, one of 700 takes more than three times its length. *)
Example C86_example : fold_work (repeat 97%N 75) = 0 /\ fold_work (repeat 97%N 76) = 76 /\ 3 * 700 < fold_work (repeat 97%N 700)
  /\ exists s, fold_line (repeat 97%N 700) = Ret s.
Proof. split; [vm_compute; reflexivity|]. split; [vm_compute; reflexivity|]. split; [apply Nat.ltb_lt; vm_compute; reflexivity|]. eexists. vm_compute. reflexivity. Qed.
