(** Exact versions of C01, C02, C12, C42, C53 and C56. *)
From Verif Require Import Str StrFacts Spec Fold UnfoldProofs Text TextProofs ValueTypes Property Chrono DateTime Component Alarm Calendar Nom Parser
  SpecBuild SpecDate SpecTree SpecDoc SpecConv SpecRound SpecText SpecFold SpecError SpecSurvive SpecSharp FoldProofs CutProofs WrittenProofs MessageProofs RoundChecks SharpProofs
  ErrorText Properties_Build Properties_Message.
From Coq Require Import ZifyBool ZifyNat ZifyN.

(** ** C01 *)
(** A folded line is unfolded to itself exactly if no piece has a line break before a blank; a line break at the end of a piece, before a
    blank at the start of the next, does no harm. *)
Theorem C01_exact : forall l s, fold_line l = Ret s ->
  exists ps last, cuts l [] 75 ps last /\ s = join_fold ps last /\ unfold s = concat (map unfold ps) ++ unfold last
    /\ (unfold s = l <-> Forall mark_free (ps ++ [last])).
Proof.
  intros l s H. apply fold_exact in H as (ps & last & C & ->). exists ps, last. split; [easy|]. split; [easy|]. split; [apply unfold_join_any|].
  pose proof (cuts_concat _ _ _ _ _ C) as E. cbn [app] in E. rewrite E at 1. apply join_exact.
Qed.
Print Assumptions C01_exact.
Definition broken_at (n : nat) : str := 233%N :: repeat 97%N n ++ [LF; SP] ++ repeat 97%N 9.
Example C01_exact_example : (exists s, fold_line (broken_at 72) = Ret s /\ ~ mark_free (broken_at 72) /\ unfold s = broken_at 72)
  /\ exists s, fold_line (broken_at 71) = Ret s /\ unfold s <> broken_at 71.
Proof.
  split.
  - eexists. split; [vm_compute; reflexivity|]. split; [|vm_compute; reflexivity]. intros H. apply (H (233%N :: repeat 97%N 72) ([LF; SP] ++ repeat 97%N 9)); [reflexivity|].
    exists SP, (repeat 97%N 9). split; [now left|now right].
  - eexists. split; [vm_compute; reflexivity|]. vm_compute. discriminate.
Qed.

(** ** C02 *)
(** The physical lines are all of at most 75 octets exactly if there is one, or the last has room for its space. *)
Theorem C02_exact : forall l s, fold_line l = Ret s -> ~ In LF l ->
  exists ps last, cuts l [] 75 ps last /\ s = join_lines (physical ps last) /\ Forall (fun p => ~ In LF p) (physical ps last)
    /\ (Forall (fun p => octets p <= 75) (physical ps last) <-> ps = [] \/ octets last < 75).
Proof.
  intros l s H N. apply fold_exact in H as (ps & last & C & ->). exists ps, last. destruct (physical_exact l ps last C) as (E & F & G). auto.
Qed.
Print Assumptions C02_exact.
(** In ASCII without white space the length decides. *)
Theorem C02_plain : forall l, Forall (fun c => (c < 128)%N /\ is_ws c = false) l ->
  exists ps last, cuts l [] 75 ps last /\ fold_line l = Ret (join_lines (physical ps last)) /\ Forall (fun p => ~ In LF p) (physical ps last)
    /\ (Forall (fun p => octets p <= 75) (physical ps last) <-> length l < 150 \/ length l mod 74 <> 2).
Proof.
  intros l A. assert (A' : Forall (fun c => non_ascii c = false) l).
  { eapply Forall_impl; [|exact A]. intros c [H _]. unfold non_ascii. apply N.leb_gt. exact H. }
  destruct (cut_ascii_ex (S (length l)) 75 l) as (ps & last & C); [lia|now right|].
  pose proof (ascii_cuts 75 l ps last C [] (or_intror eq_refl) A') as D. cbn [app length Nat.add] in D.
  destruct (physical_exact l ps last D) as (E & F & _). exists ps, last. split; [easy|]. split; [|split].
  - rewrite <- E. apply fold_exact. eauto.
  - apply F. intros I. rewrite Forall_forall in A. apply A in I as [_ I]. now vm_compute in I.
  - now apply plain_exact.
Qed.
Print Assumptions C02_plain.
Example C02_exact_example : Forall (fun c => (c < 128)%N /\ is_ws c = false) (repeat 97%N 150) /\ length (repeat 97%N 150) mod 74 = 2
  /\ fold_line (repeat 97%N 150) = Ret (join_lines (physical [repeat 97%N 75] (repeat 97%N 75)))
  /\ fold_line (repeat 97%N 149) = Ret (join_lines (physical [repeat 97%N 75] (repeat 97%N 74)))
  /\ fold_line (repeat 97%N 151) = Ret (join_lines (physical [repeat 97%N 75; repeat 97%N 74] (repeat 97%N 2))).
Proof.
  split; [|repeat split; vm_compute; reflexivity]. apply Forall_forall. intros c I. apply repeat_spec in I. subst c. now split.
Qed.

(** ** C12 *)
(** A printed property is one content line exactly if in each piece of its line every line feed has a blank after it. *)
Theorem C12_exact : forall {U : Unicode} p l s, line_written p l -> prop_write p = Ret s ->
  exists ps last, cuts l [] 75 ps last /\ s = join_fold ps last ++ [CR; LF] /\ (one_line (unfold s) <-> Forall lf_blank (ps ++ [last])).
Proof.
  intros U p l s L W. rewrite (line_written_unique p _ _ L (line_written_line p)) in *. clear L. unfold prop_write in W.
  apply cut_fold in W as (ps & last & C & ->). exists ps, last. split; [easy|]. split; [easy|]. apply one_line_exact.
Qed.
Print Assumptions C12_exact.
(** If the line is not folded: exactly if every line feed in it has a blank after it. *)
Theorem C12_short : forall {U : Unicode} p l s, line_written p l -> octets l <= 75 -> prop_write p = Ret s -> (one_line (unfold s) <-> lf_blank l).
Proof.
  intros U p l s L O W. destruct (C12_exact p l s L W) as (ps & last & C & -> & E). rewrite E. inversion C as [? ? ? Q1 Q2|? ? ? ? ? ? Q1 Q2]; subst.
  - split; [intros F; now inversion F|now constructor].
  - cbn [app] in O. lia.
Qed.
Print Assumptions C12_short.
Section Some12.
  Local Existing Instance some_unicode.
  Example C12_exact_example : exists s, prop_write (prop_new (lit "URL") (lit "a" ++ [LF; SP] ++ lit "b")) = Ret s /\ one_line (unfold s)
    /\ unfold s = lit "URL:ab" ++ [CR; LF].
  Proof.
    eexists. split; [vm_compute; reflexivity|]. split; [|now vm_compute]. exists (lit "URL:ab"). split; [now vm_compute|]. vm_compute. intuition discriminate.
  Qed.
End Some12.

(** ** C42 *)
(** In a calendar also [end] and [begin] in any case are not read back. *)
Theorem C42_calendar_partial : forall {U : Unicode} e k, clock_ok e -> plain_name k ->
  ((forall v s, let c := mk_calendar [mk_property k v []] [] in val_ok (mk_property k v []) -> cal_write e c = Ret s -> calendar_from_str s = Ok c)
   <-> ~ has_prefix (lit "END") k /\ ~ has_prefix (lit "BEGIN") k /\ map lower_ascii k <> lit "end" /\ map lower_ascii k <> lit "begin").
Proof. exact @alone_exact. Qed.
Print Assumptions C42_calendar_partial.
(** A property called [end] makes the calendar unreadable; one called [begin] makes it read as a calendar without anything in it. *)
Theorem C42_lost_refuted : forall {U : Unicode} e k, (map lower_ascii k = lit "end" \/ map lower_ascii k = lit "begin") ->
  exists s, cal_write e (mk_calendar [mk_property k [] []] []) = Ret s
    /\ (map lower_ascii k = lit "end" -> exists x, calendar_from_str s = Err x)
    /\ (map lower_ascii k = lit "begin" -> calendar_from_str s = Ok (mk_calendar [] [])).
Proof.
  intros U e k H. assert (K : plain_name k).
  { destruct H as [H|H].
    - apply end_cases in H as (a & b & c & -> & A & B & C). repeat (apply Forall_cons; [lia|]). apply Forall_nil.
    - apply begin_cases in H as (a & b & c & d & f & -> & A & B & C & D & F). repeat (apply Forall_cons; [lia|]). apply Forall_nil. }
  destruct (alone_total e k K) as [s W]. exists s. split; [easy|]. split; intros L; [now apply (alone_end e k)|now apply (alone_begin e k)].
Qed.
Print Assumptions C42_lost_refuted.
Example C42_lost_example : map lower_ascii (lit "Begin") = lit "begin" /\ ~ has_prefix (lit "BEGIN") (lit "Begin") /\ map lower_ascii (lit "eNd") = lit "end".
Proof. split; [reflexivity|]. split; [intros [r H]; discriminate H|reflexivity]. Qed.

(** ** C53 *)
(** The carets stand under the locations exactly if the text before each reported location in its line has as many octets as characters. *)
Theorem C53_caret_exact_partial : forall A i (r : result A verror) r', reported octets i r r' ->
  (reported (@length N) i r r' <-> forall e m, r = Err e -> r' = Err m ->
     Forall (fun x => forall here, before_in_line i (fst x) here -> octets here = length here) e).
Proof. exact reported_exact. Qed.
Print Assumptions C53_caret_exact_partial.
Example C53_caret_exact_example : exists e m sub w here, read_component (U := accents) accent_doc = Err e /\ read_component_s (U := accents) accent_doc = Err m
  /\ In (sub, w) e /\ before_in_line accent_doc sub here /\ octets here = 2 /\ length here = 1.
Proof.
  eexists. eexists. exists (lit "!" ++ [LF] ++ lit "END:A"). exists (VNom KManyTill). exists [233%N].
  split; [vm_compute; reflexivity|]. split; [vm_compute; reflexivity|]. split; [now left|]. split; [|now split].
  exists (lit "BEGIN:A" ++ [LF]). split; [reflexivity|]. split; [right; now exists (lit "BEGIN:A")|]. intros [H|[]]. discriminate H.
Qed.

(** ** C56 *)
(** The two conversions agree exactly if the first root is a calendar with the three properties of a new calendar, in their order and without
    parameters, and nothing else. *)
Theorem C56_exact : forall cs, conv_roots cs = conv_cal (pcal_of_roots cs)
  <-> exists inside others, cs = mk_pcomp (lit "VCALENDAR") three_props inside :: others.
Proof. exact roots_exact. Qed.
Print Assumptions C56_exact.
Example C56_exact_example : let cs := [mk_pcomp (lit "VCALENDAR") three_props [mk_pcomp (lit "VEVENT") [] []]] in
  c_comps (conv_roots cs) <> [] /\ conv_roots cs = conv_cal (pcal_of_roots cs)
  /\ conv_roots [mk_pcomp (lit "VEVENT") [] []] <> conv_cal (pcal_of_roots [mk_pcomp (lit "VEVENT") [] []]).
Proof. split; [discriminate|]. split; [reflexivity|]. intros H. apply (f_equal c_props) in H. discriminate H. Qed.
