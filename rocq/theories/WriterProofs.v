(** Writing into a writer that can fail: proofs. *)
From Verif Require Import Str StrFacts Spec Fold Text ValueTypes Property Chrono DateTime Component Calendar Nom Parser Writer
  SpecBuild SpecDate SpecTree SpecDoc SpecText SpecFold SpecFail SpecWriter FoldProofs BuildProofs TreeProofs WrittenProofs CutProofs FailProofs.
From Coq Require Import ZifyBool ZifyNat ZifyN.

(** ** The lines, and the calls for each *)

Notation item := (wline * list str)%type (only parsing).
Definition folded_item (l : str) : item := (Long l, match fold_line l with Ret s => [s; crlf] | _ => [] end).
Definition rd (A : list item) : nat := list_sum (map (fun x => readings (fst x)) A).
Lemma rd_app : forall A B, rd (A ++ B) = rd A + rd B.
Proof. intros A B. unfold rd. now rewrite map_app, list_sum_app. Qed.
Lemma rd_folded : forall ls, rd (map folded_item ls) = 0.
Proof. induction ls as [|l ls IH]; [easy|]. exact IH. Qed.
Definition begin_item (k : str) : item := (Plain (lit "BEGIN:" ++ k), [lit "BEGIN:"; k; crlf]).
Definition end_item (k : str) : item := (Plain (lit "END:" ++ k), [lit "END:"; k; crlf]).
Definition stamp_item (e : env) (n : nat) : item :=
  (Generated (lit "DTSTAMP:" ++ format_utc_date_time (now_at e n)), [lit "DTSTAMP:"; format_utc_date_time (now_at e n); crlf]).
Definition uid_item (e : env) (n : nat) : item :=
  (Generated (lit "UID:" ++ fmt_uuid (uuid_at e n)), [lit "UID:"; fmt_uuid (uuid_at e n); crlf]).

Section Items.
  Context {U : Unicode}.
  Fixpoint items (e : env) (k : str) (i : inner) (n : nat) {struct i} : list item :=
    match i with
    | mk_inner ps ms cs =>
        let st := match map_get (lit "DTSTAMP") ps with Some _ => [] | None => [stamp_item e n] end in
        let n1 := n + rd st in
        let u := match map_get (lit "UID") ps with Some _ => [] | None => [uid_item e n1] end in
        let n2 := n1 + rd u in
        begin_item k :: st ++ map folded_item (map prop_line (map snd ps)) ++ u
          ++ map folded_item (map prop_line (concat (map snd ms)))
          ++ (fix go (cs : list (str * inner)) (n : nat) : list item :=
                match cs with
                | [] => []
                | (k, c) :: r => items e k c n ++ go r (n + rd (items e k c n))
                end) cs n2 ++ [end_item k]
    end.
  Definition subitems (e : env) := fix go (cs : list (str * inner)) (n : nat) : list item :=
    match cs with [] => [] | (k, c) :: r => items e k c n ++ go r (n + rd (items e k c n)) end.
  Definition cal_items (e : env) (c : calendar) : list item :=
    (Plain (lit "BEGIN:VCALENDAR"), [lit "BEGIN:VCALENDAR" ++ crlf]) :: map folded_item (map prop_line (c_props c))
    ++ subitems e (map (fun x => (cc_kind x, cc_inner x)) (c_comps c)) 0 ++ [(Plain (lit "END:VCALENDAR"), [lit "END:VCALENDAR" ++ crlf])].
  Fixpoint pitems (e : env) (c : pcomp) (n : nat) {struct c} : list item :=
    match c with
    | mk_pcomp k ps cs =>
        let has k := existsb (fun p => str_eqb (pr_name p) (lit k)) ps in
        let cal := str_eqb (to_lowercase k) (lit "calendar") in
        let st := if cal then if has "DTSTAMP"%string then [] else [stamp_item e n] else [] in
        let n1 := n + rd st in
        let u := if cal then if has "UID"%string then [] else [uid_item e n1] else [] in
        let n2 := n1 + rd u in
        begin_item k :: (st ++ u) ++ map folded_item (map pprop_line ps)
          ++ (fix go (cs : list pcomp) (n : nat) : list item :=
                match cs with
                | [] => []
                | c :: r => pitems e c n ++ go r (n + rd (pitems e c n))
                end) cs n2 ++ [end_item k]
    end.
  Definition psubitems (e : env) := fix go (cs : list pcomp) (n : nat) : list item :=
    match cs with [] => [] | c :: r => pitems e c n ++ go r (n + rd (pitems e c n)) end.
End Items.

(** ** Running them *)

Section Run.
  Context {U : Unicode} {W : Type} (put : W -> str -> W * bool).
  Notation act := (@act W).
  Definition line_act (x : item) : act :=
    match fst x with
    | Plain _ => write_fmt put (snd x)
    | Generated _ => reading (write_fmt put (snd x))
    | Long l => match fold_line l with Ret _ => write_fmt put (snd x) | Panic => fun s => (Panicked, s) | NoFuel => fun s => (Endless, s) end
    end.
  Fixpoint run (A : list item) : act := match A with [] => nothing | x :: r => andthen (line_act x) (run r) end.
  Definition does (a : act) (n : nat) (A : list item) : Prop := forall w, a (w, n) = run A (w, n).

  Lemma fmt_count : forall xs w n f w' n', write_fmt put xs (w, n) = (f, (w', n')) -> n' = n.
  Proof.
    induction xs as [|x xs IH]; intros w n f w' n' E; [now inversion E|]. unfold write_fmt in E. cbn [fold_right] in E. unfold andthen in E.
    cbn [write_str] in E. destruct (put w x) as [w1 [|]]; [exact (IH _ _ _ _ _ E)|]. now inversion E.
  Qed.
  Lemma line_count : forall x w n w' n', line_act x (w, n) = (Done, (w', n')) -> n' = n + readings (fst x).
  Proof.
    intros [[l|l|l] xs] w n w' n' E; cbn [fst readings] in *; unfold line_act in E; cbn [fst snd reading] in E.
    - apply fmt_count in E. lia.
    - apply fmt_count in E. lia.
    - destruct (fold_line l); [apply fmt_count in E; lia|easy|easy].
  Qed.
  Lemma run_count : forall A w n w' n', run A (w, n) = (Done, (w', n')) -> n' = n + rd A.
  Proof.
    induction A as [|x A IH]; intros w n w' n' E; cbn [run] in E; unfold andthen in E.
    - inversion E; subst. unfold rd. cbn. lia.
    - destruct (line_act x (w, n)) as [[| | |] [w1 n1]] eqn:L; try easy. apply line_count in L. apply IH in E. subst.
      unfold rd. cbn [map list_sum fold_right]. unfold list_sum. lia.
  Qed.
  Lemma run_app : forall A B s, run (A ++ B) s = andthen (run A) (run B) s.
  Proof.
    induction A as [|x A IH]; intros B s; [easy|]. cbn [app run]. unfold andthen. destruct (line_act x s) as [[| | |] s1]; try easy. apply IH.
  Qed.
  Lemma does_nothing : forall n, does nothing n [].
  Proof. easy. Qed.
  Lemma does_seq : forall a b n A B, does a n A -> does b (n + rd A) B -> does (andthen a b) n (A ++ B).
  Proof.
    intros a b n A B Ha Hb w. rewrite run_app. unfold andthen. rewrite Ha. destruct (run A (w, n)) as [[| | |] [w1 n1]] eqn:R; try easy.
    apply run_count in R as ->. apply Hb.
  Qed.
  Lemma does_line : forall x a n, (forall w, a (w, n) = line_act x (w, n)) -> does a n [x].
  Proof. intros x a n H w. rewrite H. cbn [run]. unfold andthen. now destruct (line_act x (w, n)) as [[| | |] s]. Qed.
  Lemma does_cons : forall x a b n B, (forall w, a (w, n) = line_act x (w, n)) -> does b (n + readings (fst x)) B -> does (andthen a b) n (x :: B).
  Proof.
    intros x a b n B Ha Hb. change (x :: B) with ([x] ++ B). apply does_seq; [now apply does_line|].
    unfold rd. cbn [map list_sum fold_right]. now rewrite Nat.add_0_r.
  Qed.
  Lemma does_folded : forall l n w, folded_fmt_write put l (w, n) = line_act (folded_item l) (w, n).
  Proof. intros l n w. unfold folded_fmt_write, line_act, folded_item. cbn [fst snd]. now destruct (fold_line l). Qed.
  Lemma does_each : forall {A} (line : A -> str) (f : A -> act) ps n, (forall p, f p = folded_fmt_write put (line p)) ->
    does (each f ps) n (map folded_item (map line ps)).
  Proof.
    intros A line f ps n H. induction ps as [|p ps IH]; [easy|]. unfold each. cbn [map fold_right]. apply does_cons.
    - intros w. rewrite H. apply does_folded.
    - cbn [folded_item fst readings]. now rewrite Nat.add_0_r.
  Qed.
  Lemma inner_does : forall e i k n, does (inner_fmt_write put e k i) n (items e k i n).
  Proof.
    intros e. induction i as [ps ms cs IH] using inner_deep. intros k n. cbn [inner_fmt_write items]. cbv zeta.
    apply does_cons; [easy|]. cbn [begin_item fst readings]. rewrite Nat.add_0_r.
    apply does_seq. { destruct (map_get (lit "DTSTAMP") ps); [easy|]. now apply does_line. }
    apply does_seq; [now apply does_each|]. rewrite rd_folded, Nat.add_0_r.
    apply does_seq. { destruct (map_get (lit "UID") ps); [easy|]. now apply does_line. }
    apply does_seq; [now apply does_each|]. rewrite rd_folded, Nat.add_0_r.
    apply does_seq; [|now apply does_line].
    match goal with |- does _ ?m _ => generalize m end. clear - IH.
    induction IH as [|[k c] cs Hc _ IH]; intros n; [easy|]. apply does_seq; [apply Hc|apply IH].
  Qed.
  Lemma cal_does : forall e c, does (cal_fmt_write put e c) 0 (cal_items e c).
  Proof.
    intros e [ps cs]. unfold cal_fmt_write, cal_items. cbn [c_props c_comps].
    apply does_cons; [easy|]. cbn [fst readings Nat.add].
    apply does_seq; [now apply does_each|]. rewrite rd_folded. cbn [Nat.add].
    apply does_seq; [|now apply does_line]. generalize 0.
    induction cs as [|c cs IH]; intros n; [easy|]. cbn [each fold_right map subitems]. apply does_seq; [apply inner_does|apply IH].
  Qed.
  Lemma pcomp_does : forall e c n, does (pcomp_fmt_write put e c) n (pitems e c n).
  Proof.
    intros e c. induction c as [k ps cs IH] using pcomp_deep. intros n. cbn [pcomp_fmt_write pitems]. cbv zeta.
    apply does_cons; [easy|]. cbn [begin_item fst readings]. rewrite Nat.add_0_r.
    apply does_seq.
    { destruct (str_eqb (to_lowercase k) (lit "calendar")); [|easy]. apply does_seq.
      - destruct (existsb _ ps); [easy|]. now apply does_line.
      - destruct (existsb (fun p => str_eqb (pr_name p) (lit "UID")) ps); [easy|]. now apply does_line. }
    rewrite rd_app, Nat.add_assoc.
    apply does_seq; [now apply does_each|]. rewrite rd_folded, Nat.add_0_r.
    apply does_seq; [|now apply does_line].
    match goal with |- does _ ?m _ => generalize m end. clear - IH.
    induction IH as [|c cs Hc _ IH]; intros n; [easy|]. apply does_seq; [apply Hc|apply IH].
  Qed.

  (** ** Running is sending *)

  Lemma fmt_takes : forall xs w n f w' n', write_fmt put xs (w, n) = (f, (w', n')) <->
    n' = n /\ (f = Done /\ takes put w xs w' true \/ f = Failed /\ takes put w xs w' false).
  Proof.
    induction xs as [|x xs IH]; intros w n f w' n'.
    - split; [intros E; inversion E; subst; split; [easy|]; left; split; [easy|constructor]|].
      intros (-> & [(-> & T)|(-> & T)]); inversion T; now subst.
    - unfold write_fmt. cbn [fold_right]. unfold andthen. cbn [write_str]. destruct (put w x) as [w1 [|]] eqn:P.
      + rewrite (IH w1 n f w' n'). split; intros (-> & [(-> & T)|(-> & T)]); (split; [easy|]).
        * left. split; [easy|]. now apply (tk_cons put w x w1).
        * right. split; [easy|]. now apply (tk_cons put w x w1).
        * left. split; [easy|]. inversion T; subst; congruence.
        * right. split; [easy|]. inversion T; subst; congruence.
      + split.
        * intros E. inversion E; subst. split; [easy|]. right. split; [easy|]. now constructor.
        * intros (-> & [(-> & T)|(-> & T)]); inversion T; subst; congruence.
  Qed.
  Lemma long_shown : forall l, (exists s, shown (Long l) s) <-> exists s, fold_line l = Ret s.
  Proof.
    intros l. rewrite fold_return. unfold line_returns. split; intros [s H]; exists s; [now inversion H|now constructor].
  Qed.
  Lemma run_sent : forall A w n f w' n', run A (w, n) = (f, (w', n')) <-> sent put A w n f w' n'.
  Proof.
    induction A as [|[x xs] A IH]; intros w n f w' n'; cbn [run].
    - split; [intros E; inversion E; constructor|intros E; now inversion E].
    - unfold andthen.
      assert (G : forall m, m = n + readings x -> (exists s, shown x s) ->
        (match write_fmt put xs (w, m) with (Done, s') => run A s' | r => r end) = (f, (w', n')) <-> sent put ((x, xs) :: A) w n f w' n').
      { intros m -> Sh. destruct (write_fmt put xs (w, n + readings x)) as [g [w1 n1]] eqn:F. apply fmt_takes in F as (-> & [(-> & T)|(-> & T)]).
        - rewrite IH. split.
          + intros E. now apply (st_line put x xs A w n w1).
          + intros E. inversion E as [|? ? ? ? ? w1' ? ? ? _ T' E'|? ? ? ? ? w1' _ T'|? ? ? ? ? L|? ? ? ? ? L]; subst.
            * assert (w1' = w1) as -> by (clear - T T'; induction T; inversion T'; subst; try congruence; auto;
                match goal with H : put ?w ?x = (?a, true), H' : put ?w ?x = (?b, true) |- _ => rewrite H in H'; inversion H'; subst; auto end). exact E'.
            * exfalso. clear - T T'. revert T'. remember true as b eqn:B. induction T; intros T'; inversion T'; subst; try congruence.
              match goal with H : put ?w ?x = (?a, true), H' : put ?w ?x = (?b, true) |- _ => rewrite H in H'; inversion H'; subst; auto end.
            * apply long_shown in Sh as [s Sh]. apply fold_panic in L. congruence.
            * apply long_shown in Sh as [s Sh]. apply fold_circle in L. congruence.
        - split.
          + intros E. inversion E; subst. now constructor.
          + intros E. inversion E as [|? ? ? ? ? w1' ? ? ? _ T' E'|? ? ? ? ? w1' _ T'|? ? ? ? ? L|? ? ? ? ? L]; subst.
            * exfalso. clear - T T'. revert T. remember true as b eqn:B. induction T'; intros T; inversion T; subst; try congruence.
              match goal with H : put ?w ?x = (?a, true), H' : put ?w ?x = (?b, true) |- _ => rewrite H in H'; inversion H'; subst; auto end.
            * assert (w' = w1) as -> by (clear - T T'; remember false as b eqn:B; induction T; inversion T'; subst; try congruence;
                match goal with H : put ?w ?x = (?a, true), H' : put ?w ?x = (?b, true) |- _ => rewrite H in H'; inversion H'; subst; auto end). easy.
            * apply long_shown in Sh as [s Sh]. apply fold_panic in L. congruence.
            * apply long_shown in Sh as [s Sh]. apply fold_circle in L. congruence. }
      destruct x as [l|l|l]; unfold line_act; cbn [fst snd readings] in *.
      + apply G; [lia|]. eexists. constructor.
      + cbn [reading]. apply G; [lia|]. eexists. constructor.
      + destruct (fold_line l) as [s| |] eqn:F.
        * apply G; [lia|]. apply long_shown. eauto.
        * split; [intros E; inversion E; subst; constructor; now apply fold_panic|]. intros E.
          inversion E as [|? ? ? ? ? w1' ? ? ? Sh|? ? ? ? ? w1' Sh|? ? ? ? ? L|? ? ? ? ? L]; subst; try easy.
          -- apply long_shown in Sh as [s Sh]. congruence.
          -- apply long_shown in Sh as [s Sh]. congruence.
          -- apply fold_circle in L. congruence.
        * split; [intros E; inversion E; subst; constructor; now apply fold_circle|]. intros E.
          inversion E as [|? ? ? ? ? w1' ? ? ? Sh|? ? ? ? ? w1' Sh|? ? ? ? ? L|? ? ? ? ? L]; subst; try easy.
          -- apply long_shown in Sh as [s Sh]. congruence.
          -- apply long_shown in Sh as [s Sh]. congruence.
          -- apply fold_panic in L. congruence.
  Qed.
End Run.

(** ** The lines are the specified ones *)

Lemma map_folded : forall ls, map fst (map folded_item ls) = map Long ls.
Proof. intros ls. rewrite map_map. now apply map_ext. Qed.
Lemma split_folded : forall ls, Forall split_up (map folded_item ls).
Proof.
  intros ls. apply Forall_forall. intros x I. apply in_map_iff in I as (l & <- & _). intros s Sh. cbn [folded_item fst snd] in *.
  inversion Sh as [| |? ? C]; subst. apply cut_fold in C. unfold write_folded in C. destruct (fold_line l); cbn [obind] in C; try easy.
  inversion C. cbn [concat]. now rewrite app_nil_r.
Qed.
Lemma split_three : forall a b (x : wline), x = Plain (a ++ b) \/ x = Generated (a ++ b) -> split_up (x, [a; b; crlf]).
Proof.
  intros a b x [->| ->] s Sh; cbn [fst snd] in *; inversion Sh; subst; cbn [concat]; now rewrite app_nil_r, app_assoc.
Qed.
Section Lines.
  Context {U : Unicode}.
  Lemma lines_prop : forall ps, Forall2 line_written ps (map prop_line ps).
  Proof. induction ps; constructor; [apply line_written_line|easy]. Qed.
  Lemma items_lines : forall e i k n, well_made i ->
    lines_of e k i n (map fst (items e k i n)) (n + rd (items e k i n)) /\ Forall split_up (items e k i n).
  Proof.
    intros e. induction i as [ps ms cs IH] using inner_deep. intros k n Wm. inversion Wm as [? [B1 B2 B3 B4] D]; subst.
    cbn [i_props i_multi i_comps] in *. cbn [items]. cbv zeta. change (fix go (cs : list (str * inner)) (n : nat) : list item := _) with (subitems e).
    set (st := match map_get (lit "DTSTAMP") ps with Some _ => [] | None => [stamp_item e n] end).
    set (u := match map_get (lit "UID") ps with Some _ => [] | None => [uid_item e (n + rd st)] end).
    assert (K : map p_key (map snd ps) = map fst ps).
    { clear - B2. induction B2 as [|[k p] ps H _ IH]; [easy|]. cbn [map fst snd]. now rewrite IH, H. }
    assert (G : forall m, subs_lines e cs m (map fst (subitems e cs m)) (m + rd (subitems e cs m)) /\ Forall split_up (subitems e cs m)).
    { clear - IH D. induction IH as [|[k c] cs Hc _ IH]; intros m; cbn [subitems map].
      - split; [|constructor]. unfold rd. cbn. rewrite Nat.add_0_r. constructor.
      - inversion D as [|? ? D1 D2]; subst. cbn [snd] in *. destruct (Hc k m D1) as [H1 H2]. destruct (IH D2 (m + rd (items e k c m))) as [H3 H4].
        rewrite map_app, rd_app, Nat.add_assoc. split; [|now apply Forall_app]. now apply (sl_cons e k c cs m _ (m + rd (items e k c m))). }
    destruct (G (n + rd st + rd u)) as [G1 G2]. split.
    - cbn [map fst begin_item]. rewrite !map_app, !map_folded. cbn [map fst end_item].
      assert (R : n + rd (begin_item k :: st ++ map folded_item (map prop_line (map snd ps)) ++ u
        ++ map folded_item (map prop_line (concat (map snd ms))) ++ subitems e cs (n + rd st + rd u) ++ [end_item k])
        = n + rd st + rd u + rd (subitems e cs (n + rd st + rd u))).
      { change (begin_item k :: ?l) with ([begin_item k] ++ l). rewrite !rd_app, !rd_folded. change (rd [begin_item k]) with 0. change (rd [end_item k]) with 0. lia. }
      rewrite R. apply (Lines_of e k (mk_inner ps ms cs) n (n + rd st) (n + rd st + rd u) _ (map fst st) (map snd ps) _ (map fst u) ms); cbn [i_props i_multi i_comps].
      + unfold st. destruct (map_get (lit "DTSTAMP") ps); [split; [easy|unfold rd; cbn; lia]|]. split; [easy|]. unfold rd. cbn [map fst stamp_item readings list_sum fold_right]. lia.
      + rewrite K. now apply ksorted_ascending.
      + intros p. split.
        * intros I. apply in_map_iff in I as ([k0 q] & <- & I). cbn [snd]. rewrite Forall_forall in B2. rewrite (B2 _ I). now apply ksorted_get.
        * intros H. apply map_get_in in H. apply in_map_iff. now exists (p_key p, p).
      + apply lines_prop.
      + unfold u. destruct (map_get (lit "UID") ps); [split; [easy|unfold rd; cbn; lia]|]. split; [easy|]. generalize (n + rd st). intros n1. unfold rd. cbn [map fst uid_item readings list_sum fold_right]. lia.
      + now apply ksorted_ascending.
      + intros key g. split; [now apply ksorted_get|apply map_get_in].
      + rewrite flat_map_concat_map. apply lines_prop.
      + exact G1.
    - constructor; [apply split_three; now left|]. rewrite !Forall_app; repeat match goal with |- _ /\ _ => split end; try apply split_folded; try exact G2.
      + unfold st. destruct (map_get (lit "DTSTAMP") ps); constructor; [|constructor]. apply split_three. now right.
      + unfold u. destruct (map_get (lit "UID") ps); constructor; [|constructor]. apply split_three. now right.
      + constructor; [|constructor]. apply split_three. now left.
  Qed.
  Lemma subitems_lines : forall e cs m, Forall (fun o => well_made (snd o)) cs ->
    subs_lines e cs m (map fst (subitems e cs m)) (m + rd (subitems e cs m)) /\ Forall split_up (subitems e cs m).
  Proof.
    intros e cs m D. revert m. induction D as [|[k c] cs Hc _ IH]; intros m; cbn [subitems map].
    - split; [|constructor]. unfold rd. cbn. rewrite Nat.add_0_r. constructor.
    - cbn [snd] in *. destruct (items_lines e c k m Hc) as [H1 H2]. destruct (IH (m + rd (items e k c m))) as [H3 H4].
      rewrite map_app, rd_app, Nat.add_assoc. split; [|now apply Forall_app]. now apply (sl_cons e k c cs m _ (m + rd (items e k c m))).
  Qed.
  Lemma cal_items_lines : forall e c, Forall (fun x => made (cc_inner x)) (c_comps c) ->
    cal_lines e c (map fst (cal_items e c)) /\ Forall split_up (cal_items e c).
  Proof.
    intros e c M. assert (D : Forall (fun o : str * inner => well_made (snd o)) (map (fun x => (cc_kind x, cc_inner x)) (c_comps c))).
    { apply Forall_map. eapply Forall_impl; [|exact M]. intros x H. now apply made_well. }
    destruct (subitems_lines e _ 0 D) as [H1 H2]. unfold cal_items. split.
    - eexists _, _, _. split; [apply lines_prop|]. split; [exact H1|]. cbn [map fst]. now rewrite !map_app, map_folded.
    - assert (P : forall l, split_up (Plain l, [l ++ crlf])).
      { intros l s Sh. cbn [fst snd] in *. inversion Sh; subst. cbn [concat]. now rewrite app_nil_r. }
      constructor; [apply P|]. rewrite !Forall_app; repeat match goal with |- _ /\ _ => split end; [apply split_folded|exact H2|]. constructor; [apply P|constructor].
  Qed.
  Lemma pitems_lines : forall e c n,
    plines_of e c n (map fst (pitems e c n)) (n + rd (pitems e c n)) /\ Forall split_up (pitems e c n).
  Proof.
    intros e c. induction c as [k ps cs IH] using pcomp_deep. intros n.
    cbn [pitems]. cbv zeta. change (fix go (cs : list pcomp) (n : nat) : list item := _) with (psubitems e).
    set (st := if str_eqb (to_lowercase k) (lit "calendar") then _ else _).
    match goal with |- context [ (st ++ ?x) ++ _ ] => set (u := x) end.
    assert (G : forall m, psubs_lines e cs m (map fst (psubitems e cs m)) (m + rd (psubitems e cs m)) /\ Forall split_up (psubitems e cs m)).
    { clear - IH. induction IH as [|c cs Hc _ IH]; intros m; cbn [psubitems map].
      - split; [|constructor]. unfold rd. cbn. rewrite Nat.add_0_r. constructor.
      - destruct (Hc m) as [H1 H2]. destruct (IH (m + rd (pitems e c m))) as [H3 H4].
        rewrite map_app, rd_app, Nat.add_assoc. split; [|now apply Forall_app]. now apply (psl_cons e c cs m _ (m + rd (pitems e c m))). }
    destruct (G (n + rd st + rd u)) as [G1 G2].
    assert (CL : (str_eqb (to_lowercase k) (lit "calendar") = true <-> to_lowercase k = lit "calendar")) by apply str_eqb_eq.
    pose proof (names_spec (lit "DTSTAMP") ps) as ND. pose proof (names_spec (lit "UID") ps) as NU.
    split.
    - cbn [map fst begin_item]. rewrite !map_app, !map_folded. cbn [map fst end_item]. rewrite <- app_assoc.
      assert (R : n + rd (begin_item k :: (st ++ u) ++ map folded_item (map pprop_line ps) ++ psubitems e cs (n + rd st + rd u) ++ [end_item k])
        = n + rd st + rd u + rd (psubitems e cs (n + rd st + rd u))).
      { change (begin_item k :: ?l) with ([begin_item k] ++ l). rewrite !rd_app, !rd_folded. change (rd [begin_item k]) with 0. change (rd [end_item k]) with 0. lia. }
      rewrite R. apply (Plines_of e k ps cs n (n + rd st) (n + rd st + rd u)).
      + unfold st. destruct (str_eqb (to_lowercase k) (lit "calendar")); [destruct (existsb (fun p => str_eqb (pr_name p) (lit "DTSTAMP")) ps)|].
        * right. split; [intros (_ & N1); now apply N1, ND|]. split; [easy|unfold rd; cbn; lia].
        * left. split; [now apply CL|]. split; [intros Q; now apply ND in Q|]. split; [easy|]. unfold rd. cbn [map fst stamp_item readings list_sum fold_right]. lia.
        * right. split; [intros (N1 & _); now apply CL in N1|]. split; [easy|unfold rd; cbn; lia].
      + unfold u. generalize (n + rd st). intros n1. destruct (str_eqb (to_lowercase k) (lit "calendar")); [destruct (existsb (fun p => str_eqb (pr_name p) (lit "UID")) ps)|].
        * right. split; [intros (_ & N1); now apply N1, NU|]. split; [easy|unfold rd; cbn; lia].
        * left. split; [now apply CL|]. split; [intros Q; now apply NU in Q|]. split; [easy|]. unfold rd. cbn [map fst uid_item readings list_sum fold_right]. lia.
        * right. split; [intros (N1 & _); now apply CL in N1|]. split; [easy|unfold rd; cbn; lia].
      + clear. induction ps; constructor; [now apply pline_line|easy].
      + exact G1.
    - constructor; [apply split_three; now left|]. rewrite !Forall_app; repeat match goal with |- _ /\ _ => split end; try apply split_folded; try exact G2.
      + unfold st. destruct (str_eqb (to_lowercase k) (lit "calendar")); [|constructor]. destruct (existsb _ ps); constructor; [|constructor]. apply split_three. now right.
      + unfold u. generalize (n + rd st). intros n1. destruct (str_eqb (to_lowercase k) (lit "calendar")); [|constructor]. destruct (existsb (fun p => str_eqb (pr_name p) (lit "UID")) ps); constructor; [|constructor]. apply split_three. now right.
      + constructor; [|constructor]. apply split_three. now left.
  Qed.
End Lines.

Scheme lines_min := Minimality for lines_of Sort Prop
with subs_min := Minimality for subs_lines Sort Prop.
Combined Scheme lines_both from lines_min, subs_min.
Scheme plines_min := Minimality for plines_of Sort Prop
with psubs_min := Minimality for psubs_lines Sort Prop.
Combined Scheme plines_both from plines_min, psubs_min.
Section One.
  Context {U : Unicode}.
  Lemma written_one : forall ps a b, Forall2 line_written ps a -> Forall2 line_written ps b -> a = b.
  Proof.
    intros ps a b H. revert b. induction H as [|p l ps a H _ IH]; intros b F; inversion F as [|? m ? ? G1 G2]; subst; [easy|].
    apply line_is in H, G1. subst. f_equal. auto.
  Qed.
  Lemma lines_one : forall e,
    (forall k i n a m, lines_of e k i n a m -> forall b m', lines_of e k i n b m' -> a = b /\ m = m')
    /\ (forall cs n a m, subs_lines e cs n a m -> forall b m', subs_lines e cs n b m' -> a = b /\ m = m').
  Proof.
    intros e. apply lines_both.
    - intros k i n n1 n2 n3 stamp ps pl u gs gl sub H1 H2 H3 H4 H5 H6 H7 H8 H9 IH b m' F.
      inversion F as [? ? ? n1' n2' n3' stamp' ps' pl' u' gs' gl' sub' F1 F2 F3 F4 F5 F6 F7 F8 F9]; subst.
      assert (ps' = ps) as -> by (apply (asc_unique _ p_key); [easy|easy|]; intros p; now rewrite H3).
      assert (gs' = gs) as -> by (apply (asc_unique _ fst); [easy|easy|]; intros [k0 g]; now rewrite H7).
      rewrite (written_one _ _ _ F4 H4), (written_one _ _ _ F8 H8).
      assert (stamp' = stamp /\ n1' = n1) as [-> ->] by (destruct (map_get (lit "DTSTAMP") (i_props i)); destruct F1, H1; now subst).
      assert (u' = u /\ n2' = n2) as [-> ->] by (destruct (map_get (lit "UID") (i_props i)); destruct F5, H5; now subst).
      destruct (IH _ _ F9) as [-> ->]. now split.
    - intros n b m' F. now inversion F; subst.
    - intros k i r n a n1 b n2 _ IH1 _ IH2 b' m' F. inversion F as [|? ? ? ? a1 n1' b1 ? F1 F2]; subst.
      destruct (IH1 _ _ F1) as [-> ->]. destruct (IH2 _ _ F2) as [-> ->]. now split.
  Qed.
  Lemma cal_lines_one : forall e c a b, cal_lines e c a -> cal_lines e c b -> a = b.
  Proof.
    intros e c a b (pl & sub & n & P & S & ->) (pl' & sub' & n' & P' & S' & ->).
    rewrite (written_one _ _ _ P P'). destruct (proj2 (lines_one e) _ _ _ _ S _ _ S') as [-> _]. easy.
  Qed.
  Lemma pwritten_one : forall ps a b, Forall2 pline_written ps a -> Forall2 pline_written ps b -> a = b.
  Proof.
    intros ps a b H. revert b. induction H as [|p l ps a H _ IH]; intros b F; inversion F as [|? m ? ? G1 G2]; subst; [easy|].
    apply pline_line in H, G1. subst. f_equal. auto.
  Qed.
  Lemma plines_one : forall e,
    (forall c n a m, plines_of e c n a m -> forall b m', plines_of e c n b m' -> a = b /\ m = m')
    /\ (forall cs n a m, psubs_lines e cs n a m -> forall b m', psubs_lines e cs n b m' -> a = b /\ m = m').
  Proof.
    intros e. apply plines_both.
    - intros k ps cs n n1 n2 n3 stamp u pl sub H1 H2 H3 H4 IH b m' F.
      inversion F as [? ? ? ? n1' n2' n3' stamp' u' pl' sub' F1 F2 F3 F4]; subst.
      rewrite (pwritten_one _ _ _ F3 H3).
      assert (stamp' = stamp /\ n1' = n1) as [-> ->] by (clear - H1 F1; intuition congruence).
      assert (u' = u /\ n2' = n2) as [-> ->] by (clear - H2 F2; intuition congruence).
      destruct (IH _ _ F4) as [-> ->]. now split.
    - intros n b m' F. now inversion F; subst.
    - intros c r n a n1 b n2 _ IH1 _ IH2 b' m' F. inversion F as [|? ? ? a1 n1' b1 ? F1 F2]; subst.
      destruct (IH1 _ _ F1) as [-> ->]. destruct (IH2 _ _ F2) as [-> ->]. now split.
  Qed.
End One.

(** ** The text *)

Definition line_out (x : wline) : outcome str :=
  match x with Plain l | Generated l => Ret (l ++ crlf) | Long l => write_folded l end.
Definition oapp (a b : outcome str) : outcome str := obind a (fun s => obind b (fun t => Ret (s ++ t))).
Fixpoint out (ls : list wline) : outcome str := match ls with [] => Ret [] | x :: r => oapp (line_out x) (out r) end.
Lemma oapp_assoc : forall a b c, oapp (oapp a b) c = oapp a (oapp b c).
Proof. intros [s| |] [t| |] [u| |]; cbn; try easy. now rewrite app_assoc. Qed.
Lemma oapp_nil : forall a, oapp (Ret []) a = a.
Proof. now intros []. Qed.
Lemma out_app : forall a b, out (a ++ b) = oapp (out a) (out b).
Proof.
  induction a as [|x a IH]; intros b; cbn [app out]; [now rewrite oapp_nil|]. now rewrite IH, oapp_assoc.
Qed.
Lemma out_one : forall x, out [x] = line_out x.
Proof. intros x. cbn [out]. unfold oapp. destruct (line_out x); cbn [obind]; try easy. now rewrite app_nil_r. Qed.
Definition cont {A} (o : outcome A) : fin := match o with Ret _ => Done | Panic => Panicked | NoFuel => Endless end.
Lemma before_out : forall ls t f, before_bad ls t f -> cont (out ls) = f /\ (f = Done -> out ls = Ret t).
Proof.
  induction 1 as [|x s r t f Sh _ [IH1 IH2]|l r P|l r C].
  - easy.
  - assert (L : line_out x = Ret s) by (inversion Sh; subst; [easy|easy|now apply cut_fold]). cbn [out]. rewrite L. unfold oapp. cbn [obind].
    destruct (out r) as [t'| |]; cbn [obind cont] in *; (split; [easy|]); subst f; try easy. intros _. specialize (IH2 eq_refl). now inversion IH2.
  - apply fold_panic in P. cbn [out line_out]. unfold write_folded. rewrite P. now split.
  - apply fold_circle in C. cbn [out line_out]. unfold write_folded. rewrite C. now split.
Qed.
Lemma before_exists : forall ls, exists t f, before_bad ls t f.
Proof.
  induction ls as [|x r (t & f & IH)]; [exists [], Done; constructor|].
  destruct x as [l|l|l].
  - eexists _, f. apply bb_line; [constructor|exact IH].
  - eexists _, f. apply bb_line; [constructor|exact IH].
  - destruct (fold_line l) as [s| |] eqn:F.
    + destruct (proj1 (fold_return l) (ex_intro _ s F)) as [s' C]. eexists _, f. apply bb_line; [constructor; exact C|exact IH].
    + exists [], Panicked. constructor. now apply fold_panic.
    + exists [], Endless. constructor. now apply fold_circle.
Qed.
Lemma shown_one : forall x s s', shown x s -> shown x s' -> s = s'.
Proof.
  intros x s s' H H'. assert (L : forall s, shown x s -> line_out x = Ret s) by (intros z Z; inversion Z; subst; [easy|easy|now apply cut_fold]).
  apply L in H, H'. congruence.
Qed.
Lemma before_one : forall ls t f, before_bad ls t f -> forall t' f', before_bad ls t' f' -> t = t' /\ f = f'.
Proof.
  assert (B : forall l s, shown (Long l) s -> line_panics l \/ line_circles l -> False).
  { intros l s Sh [P|P]; inversion Sh as [| |? ? C]; subst; apply cut_fold in C; unfold write_folded in C; [apply fold_panic in P|apply fold_circle in P]; now rewrite P in C. }
  induction 1 as [|x s r t f Sh _ IH|l r P|l r C]; intros t' f' H.
  - now inversion H.
  - inversion H as [|? s' ? t'' ? Sh' H'|? ? P'|? ? C']; subst.
    + destruct (IH _ _ H') as [-> ->]. now rewrite (shown_one _ _ _ Sh Sh').
    + exfalso. eauto.
    + exfalso. eauto.
  - inversion H as [|? s' ? t'' ? Sh' H'|? ? P'|? ? C']; subst; [exfalso; eauto|easy|]. apply fold_panic in P. apply fold_circle in C'. congruence.
  - inversion H as [|? s' ? t'' ? Sh' H'|? ? P'|? ? C']; subst; [exfalso; eauto| |easy]. apply fold_panic in P'. apply fold_circle in C. congruence.
Qed.

Section Text.
  Context {U : Unicode}.
  Lemma props_out : forall ps, props_write ps = out (map Long (map prop_line ps)).
  Proof. induction ps as [|p ps IH]; [easy|]. cbn [props_write map out]. rewrite IH. reflexivity. Qed.
  Definition counted (o : outcome str) (n : nat) : outcome (str * nat) := obind o (fun s => Ret (s, n)).
  Lemma subs_out : forall e cs, Forall (fun o : str * inner => forall k n, inner_write e k (snd o) n = counted (out (map fst (items e k (snd o) n))) (n + rd (items e k (snd o) n))) cs ->
    forall n, inners_write e cs n = counted (out (map fst (subitems e cs n))) (n + rd (subitems e cs n)).
  Proof.
    intros e cs F. induction F as [|[k c] cs Hc _ IH]; intros n; cbn [inners_write subitems].
    - unfold rd. cbn. now rewrite Nat.add_0_r.
    - cbn [snd] in Hc. rewrite (Hc k n). rewrite map_app, out_app, rd_app. unfold counted at 1.
      destruct (out (map fst (items e k c n))) as [s| |]; cbn [obind oapp counted]; try easy. rewrite IH. unfold counted.
      destruct (out (map fst (subitems e cs (n + rd (items e k c n))))) as [t| |]; cbn [obind]; try easy; unfold oapp; cbn [obind]; try easy. now rewrite Nat.add_assoc.
  Qed.
  Lemma inner_out : forall e i k n, inner_write e k i n = counted (out (map fst (items e k i n))) (n + rd (items e k i n)).
  Proof.
    intros e. induction i as [ps ms cs IH] using inner_deep. intros k n. cbn [inner_write items]. cbv zeta.
    change (fix go (cs : list (str * inner)) (n : nat) : list item := _) with (subitems e).
    change (fix go (cs : list (str * inner)) (n : nat) : outcome (str * nat) := _) with (inners_write e).
    pose proof (subs_out e cs IH) as G.
    set (st := match map_get (lit "DTSTAMP") ps with Some _ => [] | None => [stamp_item e n] end).
    set (u := match map_get (lit "UID") ps with Some _ => [] | None => [uid_item e (n + rd st)] end).
    assert (R : n + rd (begin_item k :: st ++ map folded_item (map prop_line (map snd ps)) ++ u
        ++ map folded_item (map prop_line (concat (map snd ms))) ++ subitems e cs (n + rd st + rd u) ++ [end_item k])
        = n + rd st + rd u + rd (subitems e cs (n + rd st + rd u))).
    { change (begin_item k :: ?l) with ([begin_item k] ++ l). rewrite !rd_app, !rd_folded. change (rd [begin_item k]) with 0. change (rd [end_item k]) with 0. lia. }
    rewrite R. clear R. cbn [map out]. rewrite !map_app, !out_app, !map_folded, <- !props_out.
    assert (S1 : exists s, out (map fst st) = Ret s /\ match map_get (lit "DTSTAMP") ps with
        | Some _ => ([], n)
        | None => (lit "DTSTAMP:" ++ format_utc_date_time (now_at e n) ++ crlf, S n)
        end = (s, n + rd st)).
    { unfold st. destruct (map_get (lit "DTSTAMP") ps).
      - exists []. split; [easy|]. unfold rd. cbn. now rewrite Nat.add_0_r.
      - eexists. split; [cbn [map fst stamp_item]; rewrite out_one; reflexivity|]. rewrite <- app_assoc. f_equal. unfold rd. cbn [map fst stamp_item readings list_sum fold_right]. lia. }
    destruct S1 as (s1 & S1 & ->). rewrite S1. clear S1.
    assert (S2 : exists s, out (map fst u) = Ret s /\ match map_get (lit "UID") ps with
        | Some _ => ([], n + rd st)
        | None => (lit "UID:" ++ fmt_uuid (uuid_at e (n + rd st)) ++ crlf, S (n + rd st))
        end = (s, n + rd st + rd u)).
    { unfold u. generalize (n + rd st). intros n1. destruct (map_get (lit "UID") ps).
      - exists []. split; [easy|]. unfold rd. cbn. now rewrite Nat.add_0_r.
      - eexists. split; [cbn [map fst uid_item]; rewrite out_one; reflexivity|]. rewrite <- app_assoc. f_equal. unfold rd. cbn [map fst uid_item readings list_sum fold_right]. lia. }
    destruct S2 as (s2 & S2 & ->). rewrite S2. clear S2.
    rewrite G. clear G. cbn [map fst end_item]. rewrite out_one. cbn [begin_item fst line_out].
    destruct (props_write (map snd ps)) as [a| |]; cbn [obind oapp counted]; try easy.
    destruct (props_write (concat (map snd ms))) as [b| |]; cbn [obind oapp counted]; try easy.
    destruct (out (map fst (subitems e cs (n + rd st + rd u)))) as [c| |]; cbn [obind oapp counted]; try easy.
    f_equal. f_equal. now rewrite <- !app_assoc.
  Qed.
  Lemma cal_out : forall e c, cal_write e c = out (map fst (cal_items e c)).
  Proof.
    intros e [ps cs]. unfold cal_write, cal_items. cbn [c_props c_comps map fst out]. rewrite !map_app, !out_app, map_folded, <- props_out.
    assert (G : forall n, ccs_write e cs n = counted (out (map fst (subitems e (map (fun x => (cc_kind x, cc_inner x)) cs) n))) (n + rd (subitems e (map (fun x => (cc_kind x, cc_inner x)) cs) n))).
    { intros n. rewrite <- subs_out; [|apply Forall_forall; intros o _ k m; apply inner_out]. revert n.
      induction cs as [|c cs IH]; intros n; [easy|]. cbn [ccs_write map inners_write]. unfold cc_write.
      destruct (inner_write e (cc_kind c) (cc_inner c) n) as [[s m]| |]; cbn [obind]; try easy. now rewrite IH. }
    rewrite G. cbn [map fst line_out]. rewrite out_one. cbn [line_out]. generalize (lit "BEGIN:VCALENDAR"), (lit "END:VCALENDAR"). intros B E.
    destruct (props_write ps) as [a| |]; cbn [obind oapp counted]; try easy.
    destruct (out (map fst (subitems e _ 0))) as [d| |]; cbn [obind oapp counted]; try easy.
    f_equal. now rewrite <- !app_assoc.
  Qed.
  Lemma pprops_out : forall ps, pprops_write ps = out (map Long (map pprop_line ps)).
  Proof. induction ps as [|p ps IH]; [easy|]. cbn [pprops_write map out]. rewrite IH. reflexivity. Qed.
  Lemma pcomp_out : forall e c n, pcomp_write e c n = counted (out (map fst (pitems e c n))) (n + rd (pitems e c n)).
  Proof.
    intros e c. induction c as [k ps cs IH] using pcomp_deep. intros n. rewrite pcomp_write_eq. cbn [pitems]. cbv zeta.
    change (fix go (cs : list pcomp) (n : nat) : list item := _) with (psubitems e).
    assert (G : forall n, pcomps_write e cs n = counted (out (map fst (psubitems e cs n))) (n + rd (psubitems e cs n))).
    { clear - IH. induction IH as [|c cs Hc _ IH]; intros n; cbn [pcomps_write psubitems].
      - unfold rd. cbn. now rewrite Nat.add_0_r.
      - rewrite (Hc n), map_app, out_app, rd_app. unfold counted at 1.
        destruct (out (map fst (pitems e c n))) as [s| |]; cbn [obind oapp counted]; try easy. change (fix go (cs0 : list pcomp) (n0 : nat) {struct cs0} : outcome (str * nat) := _) with (pcomps_write e).
        rewrite IH. unfold counted.
        destruct (out (map fst (psubitems e cs (n + rd (pitems e c n))))) as [t| |]; cbn [obind]; try easy. now rewrite Nat.add_assoc. }
    set (st := if str_eqb (to_lowercase k) (lit "calendar") then _ else _).
    match goal with |- context [ (st ++ ?x) ++ _ ] => set (u := x) end.
    assert (R : n + rd (begin_item k :: (st ++ u) ++ map folded_item (map pprop_line ps) ++ psubitems e cs (n + rd st + rd u) ++ [end_item k])
        = n + rd st + rd u + rd (psubitems e cs (n + rd st + rd u))).
    { change (begin_item k :: ?l) with ([begin_item k] ++ l). rewrite !rd_app, !rd_folded. change (rd [begin_item k]) with 0. change (rd [end_item k]) with 0. lia. }
    rewrite R. clear R. cbn [map out]. rewrite !map_app, !out_app, !map_folded, <- !pprops_out.
    assert (S1 : exists s, oapp (out (map fst st)) (out (map fst u)) = Ret s /\ like_extra e k ps n = (s, n + rd st + rd u)).
    { unfold u, st, like_extra. destruct (str_eqb (to_lowercase k) (lit "calendar")).
      - destruct (existsb (fun p => str_eqb (pr_name p) (lit "DTSTAMP")) ps), (existsb (fun p => str_eqb (pr_name p) (lit "UID")) ps).
        + exists []. split; [easy|]. unfold rd. cbn. now rewrite !Nat.add_0_r.
        + change (rd []) with 0. rewrite Nat.add_0_r. eexists. split; [cbn [map fst uid_item]; rewrite oapp_nil, out_one; reflexivity|].
          change (rd [uid_item e n]) with 1. rewrite <- app_assoc. f_equal. lia.
        + change (rd []) with 0. change (rd [stamp_item e n]) with 1. eexists. split; [cbn [map fst stamp_item]; rewrite out_one; reflexivity|].
          rewrite <- app_assoc. f_equal. lia.
        + change (rd [stamp_item e n]) with 1. replace (n + 1) with (S n) by lia. change (rd [uid_item e (S n)]) with 1. eexists.
          split; [cbn [map fst stamp_item uid_item]; rewrite !out_one; reflexivity|]. rewrite <- !app_assoc. f_equal. lia.
      - exists []. split; [easy|]. unfold rd. cbn. now rewrite !Nat.add_0_r. }
    destruct S1 as (s1 & S1 & ->). rewrite S1. clear S1.
    rewrite G. clear G. cbn [map fst end_item]. rewrite out_one. cbn [begin_item fst line_out].
    destruct (pprops_write ps) as [a| |]; cbn [obind oapp counted]; try easy.
    destruct (out (map fst (psubitems e cs (n + rd st + rd u)))) as [c| |]; cbn [obind oapp counted]; try easy.
    f_equal. f_equal. now rewrite <- !app_assoc.
  Qed.
End Text.

(** ** What a writer has got in the end *)

Section Kept.
  Context {W : Type} (put : W -> str -> W * bool) (kept : W -> str).
  Hypothesis K : keeps put kept.
  Lemma takes_kept : forall w xs w' ok, takes put w xs w' ok ->
    exists y, kept w' = kept w ++ y /\ if ok then y = concat xs else has_prefix y (concat xs).
  Proof.
    induction 1 as [w|w x w1 r w2 ok P _ (y & Y & IH)|w x w1 r P].
    - exists []. now rewrite app_nil_r.
    - destruct (K _ _ _ _ P) as (z & Z & ->). exists (x ++ y). split; [now rewrite Y, Z, app_assoc|]. cbn [concat].
      destruct ok; [now subst|]. destruct IH as [q Q]. exists q. now rewrite Q, app_assoc.
    - destruct (K _ _ _ _ P) as (z & Z & [q ->]). exists z. split; [easy|]. exists (q ++ concat r). cbn [concat]. now rewrite app_assoc.
  Qed.
  Lemma sent_kept : forall A w n f w' n', sent put A w n f w' n' -> Forall split_up A -> forall t g, before_bad (map fst A) t g ->
    exists y, kept w' = kept w ++ y /\ (f = g /\ y = t \/ f = Failed /\ has_prefix y t).
  Proof.
    induction 1 as [w n|x xs r w n w1 f w2 n2 [s Sh] T _ IH|x xs r w n w1 [s Sh] T|l xs r w n P|l xs r w n P]; intros F t g B.
    - inversion B; subst. exists []. rewrite app_nil_r. auto.
    - inversion F as [|? ? F1 F2]; subst. assert (Q := F1 s Sh). cbn [snd] in Q. cbn [map fst] in B.
      assert (B' : before_bad (x :: map fst r) t g /\ exists t1, t = s ++ t1 /\ before_bad (map fst r) t1 g).
      { split; [easy|]. destruct (before_exists (map fst r)) as (t1 & g1 & B1). destruct (before_one _ _ _ B _ _ (bb_line x s (map fst r) t1 g1 Sh B1)) as [-> ->].
        now exists t1. }
      destruct B' as (_ & t1 & -> & B1). destruct (takes_kept _ _ _ _ T) as (y & Y & E). subst y. destruct (IH F2 _ _ B1) as (z & Z & C).
      exists (s ++ z). split; [now rewrite Z, Y, Q, app_assoc|]. destruct C as [[-> ->]|[-> [q ->]]]; [now left|]. right. split; [easy|]. exists q. now rewrite app_assoc.
    - inversion F as [|? ? F1 F2]; subst. assert (Q := F1 s Sh). cbn [snd] in Q. cbn [map fst] in B.
      destruct (before_exists (map fst r)) as (t1 & g1 & B1). destruct (before_one _ _ _ B _ _ (bb_line x s (map fst r) t1 g1 Sh B1)) as [-> ->].
      destruct (takes_kept _ _ _ _ T) as (y & Y & [q E]). exists y. split; [easy|]. right. split; [easy|]. exists (q ++ t1). now rewrite <- Q, E, app_assoc.
    - cbn [map fst] in B. destruct (before_one _ _ _ B _ _ (bb_panic l (map fst r) P)) as [-> ->]. exists []. rewrite app_nil_r. auto.
    - cbn [map fst] in B. destruct (before_one _ _ _ B _ _ (bb_endless l (map fst r) P)) as [-> ->]. exists []. rewrite app_nil_r. auto.
  Qed.
End Kept.
(** Writers that never fail. *)
Lemma sent_never : forall W (put : W -> str -> W * bool), (forall w x, snd (put w x) = true) ->
  forall A w n f w' n', sent put A w n f w' n' -> f <> Failed.
Proof.
  intros W put H A w n f w' n'. induction 1 as [w n|x xs r w n w1 f w2 n2 [s Sh] T _ IH|x xs r w n w1 [s Sh] T|l xs r w n P|l xs r w n P]; try easy.
  remember false as b eqn:B. induction T as [|? ? ? ? ? ? ? ? IH|w x0 w1 r0 P]; [easy|auto|]. specialize (H w x0). now rewrite P in H.
Qed.
Lemma string_keeps : keeps put_string (fun w => w).
Proof. intros w x w1 ok E. inversion E; subst. now exists x. Qed.
Lemma limited_keeps : forall cap, keeps (put_limited cap) (fun w => w).
Proof.
  intros cap w x w1 ok E. unfold put_limited in E. destruct (_ <=? _); inversion E; subst; [now exists x|]. exists []. rewrite app_nil_r. split; [easy|]. now exists x.
Qed.
Lemma octets_app : forall a b, octets (a ++ b) = octets a + octets b.
Proof. intros a b. rewrite !octets_blen. apply blen_app. Qed.
Lemma limited_takes : forall cap w xs w' ok, takes (put_limited cap) w xs w' ok -> octets w <= cap ->
  octets w' <= cap /\ (ok = false -> cap < octets (w ++ concat xs)).
Proof.
  intros cap w xs w' ok. induction 1 as [w|w x w1 r w2 ok P _ IH|w x w1 r P]; intros L.
  - easy.
  - unfold put_limited in P. destruct (octets (w ++ x) <=? cap) eqn:Q; inversion P; subst. cbn [concat].
    destruct IH as [I1 I2]; [lia|]. split; [easy|]. intros O. specialize (I2 O). now rewrite app_assoc.
  - unfold put_limited in P. destruct (octets (w ++ x) <=? cap) eqn:Q; inversion P; subst. split; [easy|]. intros _. cbn [concat].
    rewrite app_assoc, octets_app. lia.
Qed.
Lemma limited_sent : forall cap A w n f w' n', sent (put_limited cap) A w n f w' n' -> Forall split_up A -> octets w <= cap ->
  forall t g, before_bad (map fst A) t g -> octets w' <= cap /\ (f = Failed -> cap < octets (w ++ t)).
Proof.
  intros cap A w n f w' n'.
  induction 1 as [w n|x xs r w n w1 f w2 n2 [s Sh] T _ IH|x xs r w n w1 [s Sh] T|l xs r w n P|l xs r w n P]; intros F L t g B; try easy.
  - inversion F as [|? ? F1 F2]; subst. assert (Q := F1 s Sh). cbn [snd] in Q. cbn [map fst] in B.
    destruct (before_exists (map fst r)) as (t1 & g1 & B1). destruct (before_one _ _ _ B _ _ (bb_line x s (map fst r) t1 g1 Sh B1)) as [-> ->].
    destruct (limited_takes _ _ _ _ _ T L) as [L1 _]. destruct (IH F2 L1 _ _ B1) as [L2 L3]. split; [easy|]. intros E. specialize (L3 E).
    destruct (takes_kept _ _ (limited_keeps cap) _ _ _ _ T) as (y & -> & ->). rewrite Q in L3. now rewrite app_assoc.
  - inversion F as [|? ? F1 F2]; subst. assert (Q := F1 s Sh). cbn [snd] in Q. cbn [map fst] in B.
    destruct (before_exists (map fst r)) as (t1 & g1 & B1). destruct (before_one _ _ _ B _ _ (bb_line x s (map fst r) t1 g1 Sh B1)) as [-> ->].
    destruct (limited_takes _ _ _ _ _ T L) as [L1 L2]. split; [easy|]. intros _. specialize (L2 eq_refl). rewrite Q in L2.
    rewrite app_assoc, octets_app. lia.
Qed.
Lemma logged_takes : forall W (put : W -> str -> W * bool) w xs w' ok, takes (put_logged put) w xs w' ok ->
  exists m, snd w' = snd w ++ repeat true m ++ if ok then [] else [false].
Proof.
  intros W put w xs w' ok. induction 1 as [w|w x w1 r w2 ok P _ [m IH]|w x w1 r P].
  - exists 0. now rewrite app_nil_r.
  - unfold put_logged in P. destruct (put (fst w) x) as [v [|]]; inversion P; subst. exists (S m). rewrite IH. cbn [snd]. now rewrite <- app_assoc.
  - unfold put_logged in P. destruct (put (fst w) x) as [v [|]]; inversion P; subst. now exists 0.
Qed.
Lemma logged_sent : forall W (put : W -> str -> W * bool) A w n f w' n', sent (put_logged put) A w n f w' n' ->
  exists m, snd w' = snd w ++ repeat true m ++ match f with Failed => [false] | _ => [] end.
Proof.
  intros W put A w n f w' n'.
  assert (Z : forall (u : list bool), u = u ++ repeat true 0 ++ []) by (intros u; cbn; now rewrite app_nil_r).
  induction 1 as [w n|x xs r w n w1 f w2 n2 _ T _ [m IH]|x xs r w n w1 _ T|l xs r w n P|l xs r w n P].
  - now exists 0.
  - apply logged_takes in T as [k T]. exists (k + m). rewrite IH, T, app_nil_r, repeat_app. now rewrite !app_assoc.
  - now apply logged_takes in T.
  - now exists 0.
  - now exists 0.
Qed.

(** ** Together *)

Section Together.
  Context {U : Unicode}.
  Lemma writes_component : forall e k i n, made i -> exists ls m, lines_of e k i n (map fst ls) m /\ Forall split_up ls
    /\ forall (W : Type) (put : W -> str -> W * bool) w f w' n', inner_fmt_write put e k i (w, n) = (f, (w', n')) <-> sent put ls w n f w' n'.
  Proof.
    intros e k i n M. apply made_well in M. destruct (items_lines e i k n M) as [L S]. exists (items e k i n), (n + rd (items e k i n)).
    split; [easy|]. split; [easy|]. intros W put w f w' n'. rewrite (inner_does put e i k n w). apply run_sent.
  Qed.
  Lemma writes_calendar : forall e c, Forall (fun x => made (cc_inner x)) (c_comps c) -> exists ls, cal_lines e c (map fst ls) /\ Forall split_up ls
    /\ forall (W : Type) (put : W -> str -> W * bool) w f w' n', cal_fmt_write put e c (w, 0) = (f, (w', n')) <-> sent put ls w 0 f w' n'.
  Proof.
    intros e c M. destruct (cal_items_lines e c M) as [L S]. exists (cal_items e c).
    split; [easy|]. split; [easy|]. intros W put w f w' n'. rewrite (cal_does put e c w). apply run_sent.
  Qed.
  Lemma writes_parsed : forall e c, exists ls m, plines_of e (mk_pcomp (lit "VCALENDAR") (pcal_props c) (pcal_comps c)) 0 (map fst ls) m /\ Forall split_up ls
    /\ forall (W : Type) (put : W -> str -> W * bool) w f w' n', pcal_fmt_write put e c (w, 0) = (f, (w', n')) <-> sent put ls w 0 f w' n'.
  Proof.
    intros e c. unfold pcal_fmt_write. set (p := mk_pcomp _ _ _). destruct (pitems_lines e p 0) as [L S]. exists (pitems e p 0), (0 + rd (pitems e p 0)).
    split; [easy|]. split; [easy|]. intros W put w f w' n'. rewrite (pcomp_does put e p 0 w). apply run_sent.
  Qed.
  Lemma writes_property : forall p l, line_written p l -> exists xs, split_up (Long l, xs)
    /\ forall (W : Type) (put : W -> str -> W * bool) w n f w' n', prop_fmt_write put p (w, n) = (f, (w', n')) <-> sent put [(Long l, xs)] w n f w' n'.
  Proof.
    intros p l L. apply line_is in L as ->. exists (snd (folded_item (prop_line p))).
    split; [pose proof (split_folded [prop_line p]) as S; now inversion S|]. intros W put w n f w' n'. rewrite <- run_sent.
    rewrite (does_line put (folded_item (prop_line p)) (prop_fmt_write put p) n (does_folded put _ n) w). reflexivity.
  Qed.
  Lemma out_text : forall ls t g, before_bad ls t g -> as_text (out ls) g t.
  Proof. intros ls t g B. apply before_out in B as [B1 B2]. unfold as_text. destruct (out ls); cbn [cont] in B1; subst g; auto. Qed.
  Lemma string_sent : forall A w n f w' n', sent put_string A w n f w' n' -> Forall split_up A -> forall t g, before_bad (map fst A) t g -> f = g /\ w' = w ++ t.
  Proof.
    intros A w n f w' n' S F t g B. destruct (sent_kept _ _ string_keeps _ _ _ _ _ _ S F _ _ B) as (y & E & [[-> ->]|[-> _]]); [easy|].
    exfalso. exact (sent_never _ put_string (fun _ _ => eq_refl) _ _ _ _ _ _ S eq_refl).
  Qed.
  (** The readings of the clock and the random source. *)
  Lemma sent_reads : forall W put A (w : W) n w' n', sent put A w n Done w' n' -> n' = n + list_sum (map readings (map fst A)).
  Proof.
    intros W put A w n w' n' S. remember Done as f eqn:E. induction S as [w n|x xs r w n w1 f w2 n2 _ _ _ IH| | |]; try discriminate E; cbn [map list_sum fold_right fst]; [lia|].
    rewrite (IH E). unfold list_sum. lia.
  Qed.
  Lemma long_reads : forall pl, list_sum (map readings (map Long pl)) = 0.
  Proof. induction pl; [easy|]. now cbn. Qed.
  Lemma lines_reads : forall e, (forall k i n a m, lines_of e k i n a m -> m = n + list_sum (map readings a))
    /\ (forall cs n a m, subs_lines e cs n a m -> m = n + list_sum (map readings a)).
  Proof.
    intros e. apply lines_both.
    - intros k i n n1 n2 n3 stamp ps pl u gs gl sub H1 _ _ _ H5 _ _ _ _ IH. cbn [map]. rewrite !map_app. cbn [list_sum fold_right]. fold list_sum.
      change (fold_right Nat.add 0) with list_sum. rewrite !list_sum_app, !long_reads. cbn [map list_sum fold_right readings].
      destruct (map_get (lit "DTSTAMP") _), (map_get (lit "UID") _); destruct H1 as [-> ->], H5 as [-> ->]; cbn [map list_sum fold_right readings]; lia.
    - intros n. cbn. lia.
    - intros k i r n a n1 b n2 _ IH1 _ IH2. rewrite map_app, list_sum_app. lia.
  Qed.
  Lemma plines_reads : forall e, (forall c n a m, plines_of e c n a m -> m = n + list_sum (map readings a))
    /\ (forall cs n a m, psubs_lines e cs n a m -> m = n + list_sum (map readings a)).
  Proof.
    intros e. apply plines_both.
    - intros k ps cs n n1 n2 n3 stamp u pl sub H1 H2 _ _ IH. cbn [map]. rewrite !map_app. cbn [list_sum fold_right].
      change (fold_right Nat.add 0) with list_sum. rewrite !list_sum_app, !long_reads. cbn [map list_sum fold_right readings].
      destruct H1 as [(_ & _ & -> & ->)|(_ & -> & ->)], H2 as [(_ & _ & -> & ->)|(_ & -> & ->)]; cbn [map list_sum fold_right readings]; lia.
    - intros n. cbn. lia.
    - intros c r n a n1 b n2 _ IH1 _ IH2. rewrite map_app, list_sum_app. lia.
  Qed.
  Lemma cal_text : forall e c ls t g, Forall (fun x => made (cc_inner x)) (c_comps c) -> cal_lines e c ls -> before_bad ls t g ->
    as_text (cal_write e c) g t.
  Proof.
    intros e c ls t g M L B. destruct (cal_items_lines e c M) as [L' _]. rewrite (cal_lines_one _ _ _ _ L L') in B. rewrite cal_out. now apply out_text.
  Qed.
  Lemma comp_text : forall e k i n ls m t g, made i -> lines_of e k i n ls m -> before_bad ls t g ->
    as_text (inner_write e k i n) g (t, m).
  Proof.
    intros e k i n ls m t g M L B. apply made_well in M. destruct (items_lines e i k n M) as [L' _].
    destruct (proj1 (lines_one e) _ _ _ _ _ L _ _ L') as [-> ->]. rewrite inner_out. apply out_text in B.
    unfold as_text, counted in *. destruct B as [[-> ->]|[[-> ->]|[-> ->]]]; cbn [obind]; auto.
  Qed.
  Lemma parsed_text : forall e c ls m t g, plines_of e (mk_pcomp (lit "VCALENDAR") (pcal_props c) (pcal_comps c)) 0 ls m -> before_bad ls t g ->
    as_text (pcal_write e c) g t.
  Proof.
    intros e c ls m t g L B. unfold pcal_write. set (p := mk_pcomp _ _ _) in *. destruct (pitems_lines e p 0) as [L' _].
    destruct (proj1 (plines_one e) _ _ _ _ L _ _ L') as [-> ->]. rewrite pcomp_out. apply out_text in B.
    unfold as_text, counted in *. destruct B as [[-> ->]|[[-> ->]|[-> ->]]]; cbn [obind]; auto.
  Qed.
End Together.
