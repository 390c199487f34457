(** C83: writing into a writer that can fail. *)
From Verif Require Import Str Spec Fold ValueTypes Property Chrono DateTime Component Alarm Calendar Nom Parser Writer
  SpecBuild SpecDate SpecTree SpecDoc SpecText SpecFold SpecFail SpecWriter FailProofs WriterProofs Properties_Build Properties_Fail.

(** There is one list of lines and calls of [write_str] for a component, the same for every writer; writing makes these calls
    in order and ends at the first that fails, or before the first line that cannot be folded. *)
Theorem C83_component : forall {U : Unicode} e k i n, made i -> exists ls m, lines_of e k i n (map fst ls) m /\ Forall split_up ls
  /\ forall (W : Type) (put : W -> str -> W * bool) w f w' n',
       inner_fmt_write put e k i (w, n) = (f, (w', n')) <-> sent put ls w n f w' n'.
Proof. intros U. exact writes_component. Qed.
Print Assumptions C83_component.
Theorem C83_calendar : forall {U : Unicode} e c, Forall (fun x => made (cc_inner x)) (c_comps c) ->
  exists ls, cal_lines e c (map fst ls) /\ Forall split_up ls
  /\ forall (W : Type) (put : W -> str -> W * bool) w f w' n',
       cal_fmt_write put e c (w, 0) = (f, (w', n')) <-> sent put ls w 0 f w' n'.
Proof. intros U. exact writes_calendar. Qed.
Print Assumptions C83_calendar.
Theorem C83_parsed : forall {U : Unicode} e c, exists ls m,
  plines_of e (mk_pcomp (lit "VCALENDAR") (pcal_props c) (pcal_comps c)) 0 (map fst ls) m /\ Forall split_up ls
  /\ forall (W : Type) (put : W -> str -> W * bool) w f w' n',
       pcal_fmt_write put e c (w, 0) = (f, (w', n')) <-> sent put ls w 0 f w' n'.
Proof. intros U. exact writes_parsed. Qed.
Print Assumptions C83_parsed.
Theorem C83_property : forall {U : Unicode} p l, line_written p l -> exists xs, split_up (Long l, xs)
  /\ forall (W : Type) (put : W -> str -> W * bool) w n f w' n',
       prop_fmt_write put p (w, n) = (f, (w', n')) <-> sent put [(Long l, xs)] w n f w' n'.
Proof. intros U. exact writes_property. Qed.
Print Assumptions C83_property.
(** The lines are determined, and so is the text before the first line that cannot be folded. *)
Theorem C83_determined : forall {U : Unicode} e,
  (forall k i n a m b m', lines_of e k i n a m -> lines_of e k i n b m' -> a = b /\ m = m')
  /\ (forall c a b, cal_lines e c a -> cal_lines e c b -> a = b)
  /\ (forall c n a m b m', plines_of e c n a m -> plines_of e c n b m' -> a = b /\ m = m')
  /\ (forall ls, exists t f, before_bad ls t f /\ forall t' f', before_bad ls t' f' -> t' = t /\ f' = f).
Proof.
  intros U e. split; [|split; [|split]].
  - intros k i n a m b m' A B. exact (proj1 (lines_one e) k i n a m A b m' B).
  - exact (cal_lines_one e).
  - intros c n a m b m' A B. exact (proj1 (plines_one e) c n a m A b m' B).
  - intros ls. destruct (before_exists ls) as (t & f & B). exists t, f. split; [exact B|]. intros t' f' B'. exact (before_one _ _ _ B' _ _ B).
Qed.
Print Assumptions C83_determined.
(** Into a [String]: [to_string] and the like return this text, panic or never return as the lines tell, and a [String] that is written
    into has got the text of the lines before, even if there is a panic. *)
Theorem C83_string : forall {U : Unicode} e c, Forall (fun x => made (cc_inner x)) (c_comps c) ->
  exists ls t g n, cal_lines e c ls /\ before_bad ls t g /\ as_text (cal_write e c) g t /\ cal_fmt_write put_string e c ([], 0) = (g, (t, n)).
Proof.
  intros U e c M. destruct (writes_calendar e c M) as (ls & L & F & S). destruct (before_exists (map fst ls)) as (t & g & B).
  destruct (cal_fmt_write put_string e c ([], 0)) as [f [w n]] eqn:E. apply S in E. destruct (string_sent _ _ _ _ _ _ E F _ _ B) as [-> ->].
  exists (map fst ls), t, g, n. split; [exact L|]. split; [exact B|]. split; [exact (cal_text _ _ _ _ _ M L B)|reflexivity].
Qed.
Print Assumptions C83_string.
Theorem C83_component_string : forall {U : Unicode} e k i n, made i ->
  exists ls m t g n', lines_of e k i n ls m /\ before_bad ls t g /\ as_text (inner_write e k i n) g (t, m)
  /\ inner_fmt_write put_string e k i ([], n) = (g, (t, n')) /\ (g = Done -> n' = m).
Proof.
  intros U e k i n M. destruct (writes_component e k i n M) as (ls & m & L & F & S). destruct (before_exists (map fst ls)) as (t & g & B).
  destruct (inner_fmt_write put_string e k i ([], n)) as [f [w n']] eqn:E. apply S in E. destruct (string_sent _ _ _ _ _ _ E F _ _ B) as [-> ->].
  exists (map fst ls), m, t, g, n'. split; [exact L|]. split; [exact B|]. split; [exact (comp_text _ _ _ _ _ _ _ _ M L B)|].
  split; [reflexivity|]. intros ->. apply sent_reads in E. now rewrite E, (proj1 (lines_reads e) _ _ _ _ _ L).
Qed.
Print Assumptions C83_component_string.
Theorem C83_parsed_string : forall {U : Unicode} e c,
  exists ls m t g n', plines_of e (mk_pcomp (lit "VCALENDAR") (pcal_props c) (pcal_comps c)) 0 ls m /\ before_bad ls t g
  /\ as_text (pcal_write e c) g t /\ pcal_fmt_write put_string e c ([], 0) = (g, (t, n')) /\ (g = Done -> n' = m).
Proof.
  intros U e c. destruct (writes_parsed e c) as (ls & m & L & F & S). destruct (before_exists (map fst ls)) as (t & g & B).
  destruct (pcal_fmt_write put_string e c ([], 0)) as [f [w n']] eqn:E. apply S in E. destruct (string_sent _ _ _ _ _ _ E F _ _ B) as [-> ->].
  exists (map fst ls), m, t, g, n'. split; [exact L|]. split; [exact B|]. split; [exact (parsed_text _ _ _ _ _ _ L B)|].
  split; [reflexivity|]. intros ->. apply sent_reads in E. now rewrite E, (proj1 (plines_reads e) _ _ _ _ L).
Qed.
Print Assumptions C83_parsed_string.
(** Whatever the writer does: it gets the text from its start, all of it unless it fails. *)
Theorem C83_prefix : forall {U : Unicode} e c ls t g (W : Type) (put : W -> str -> W * bool) kept w f w' n,
  Forall (fun x => made (cc_inner x)) (c_comps c) -> cal_lines e c ls -> before_bad ls t g -> keeps put kept ->
  cal_fmt_write put e c (w, 0) = (f, (w', n)) ->
  exists y, kept w' = kept w ++ y /\ (f = g /\ y = t \/ f = Failed /\ has_prefix y t).
Proof.
  intros U e c ls t g W put kept w f w' n M L B K E. destruct (writes_calendar e c M) as (ls' & L' & F & S). apply S in E.
  rewrite (cal_lines_one _ _ _ _ L L') in B. exact (sent_kept _ _ K _ _ _ _ _ _ E F _ _ B).
Qed.
Print Assumptions C83_prefix.
Theorem C83_component_prefix : forall {U : Unicode} e k i n ls m t g (W : Type) (put : W -> str -> W * bool) kept w f w' n',
  made i -> lines_of e k i n ls m -> before_bad ls t g -> keeps put kept -> inner_fmt_write put e k i (w, n) = (f, (w', n')) ->
  exists y, kept w' = kept w ++ y /\ (f = g /\ y = t \/ f = Failed /\ has_prefix y t).
Proof.
  intros U e k i n ls m t g W put kept w f w' n' M L B K E. destruct (writes_component e k i n M) as (ls' & m' & L' & F & S). apply S in E.
  rewrite (proj1 (proj1 (lines_one e) _ _ _ _ _ L _ _ L')) in B. exact (sent_kept _ _ K _ _ _ _ _ _ E F _ _ B).
Qed.
Print Assumptions C83_component_prefix.
(** A buffer of [cap] octets: it is an error if and only if the text does not fit. *)
Theorem C83_limited : forall {U : Unicode} e c ls t g cap f s n,
  Forall (fun x => made (cc_inner x)) (c_comps c) -> cal_lines e c ls -> before_bad ls t g ->
  cal_fmt_write (put_limited cap) e c ([], 0) = (f, (s, n)) ->
  octets t <= cap /\ f = g /\ s = t \/ cap < octets t /\ f = Failed /\ has_prefix s t /\ octets s <= cap.
Proof.
  intros U e c ls t g cap f s n M L B E. destruct (writes_calendar e c M) as (ls' & L' & F & S). apply S in E.
  rewrite (cal_lines_one _ _ _ _ L L') in B. destruct (limited_sent _ _ _ _ _ _ _ E F (Nat.le_0_l _) _ _ B) as [H1 H2].
  destruct (sent_kept _ _ (limited_keeps cap) _ _ _ _ _ _ E F _ _ B) as (y & Y & [[-> ->]|[-> P]]); cbn [app] in *; subst s.
  - left. split; [exact H1|]. split; reflexivity.
  - right. split; [exact (H2 eq_refl)|]. split; [reflexivity|]. split; [exact P|exact H1].
Qed.
Print Assumptions C83_limited.
(** No error is passed over: after a call that failed there is no other, and the end is an error if and only if a call failed. *)
Theorem C83_answers : forall {U : Unicode} e c (W : Type) (put : W -> str -> W * bool) w f w' bs n,
  Forall (fun x => made (cc_inner x)) (c_comps c) -> cal_fmt_write (put_logged put) e c ((w, []), 0) = (f, ((w', bs), n)) ->
  exists m, bs = repeat true m ++ match f with Failed => [false] | _ => [] end.
Proof.
  intros U e c W put w f w' bs n M E. destruct (writes_calendar e c M) as (ls & _ & _ & S). apply S in E. exact (logged_sent _ _ _ _ _ _ _ _ E).
Qed.
Print Assumptions C83_answers.

Theorem C83_component_answers : forall {U : Unicode} e k i n (W : Type) (put : W -> str -> W * bool) w f w' bs n',
  made i -> inner_fmt_write (put_logged put) e k i ((w, []), n) = (f, ((w', bs), n')) ->
  exists m, bs = repeat true m ++ match f with Failed => [false] | _ => [] end.
Proof.
  intros U e k i n W put w f w' bs n' M E. destruct (writes_component e k i n M) as (ls & m & _ & _ & S). apply S in E. exact (logged_sent _ _ _ _ _ _ _ _ E).
Qed.
Print Assumptions C83_component_answers.

Section Example.
  Local Existing Instance some_unicode.
  (** A writer that fails after [k] calls and counts the octets. *)
  Definition put_some (w : nat * nat) (x : str) : (nat * nat) * bool :=
    match fst w with 0 => (w, false) | S k => ((k, snd w + octets x), true) end.
  Definition cal_ok : calendar := bad_cal (lit "fine") (lit "fine too").
  (** The description of the second component panics: everything before it has been written, but nothing of its line. *)
  Example C83_example : Forall (fun x => made (cc_inner x)) (c_comps cal_ok)
    /\ (exists s, cal_write some_env cal_ok = Ret s /\ cal_fmt_write put_string some_env cal_ok ([], 0) = (Done, (s, 8))
        /\ octets s = 682 /\ fst (cal_fmt_write (put_limited 681) some_env cal_ok ([], 0)) = Failed
        /\ fst (cal_fmt_write (put_limited 682) some_env cal_ok ([], 0)) = Done)
    /\ cal_fmt_write put_some some_env cal_ok ((10, 0), 0) = (Failed, ((0, 85), 1))
    /\ cal_write some_env (bad_cal (lit "fine") panicking) = Panic
    /\ (exists s, cal_fmt_write put_string some_env (bad_cal (lit "fine") panicking) ([], 0) = (Panicked, (s, 5)) /\ octets s = 421)
    /\ exists s, cal_fmt_write put_string some_env (bad_cal hanging (lit "fine")) ([], 0) = (Endless, (s, 5)) /\ octets s = 439.
  Proof.
    split; [apply C78_example|]. split.
    - eexists. split; [vm_compute; reflexivity|]. split; [vm_compute; reflexivity|]. split; [vm_compute; reflexivity|]. split; vm_compute; reflexivity.
    - split; [vm_compute; reflexivity|]. split; [vm_compute; reflexivity|].
      split; eexists; (split; [vm_compute; reflexivity|vm_compute; reflexivity]).
  Qed.
End Example.
