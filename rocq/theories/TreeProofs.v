(** Writing components. *)
From Verif Require Import Str StrFacts Fold FoldProofs Text TextProofs ValueTypes Property Chrono DateTime
  Component Alarm Calendar Nom Parser SpecBuild SpecDate SpecTree BuildProofs DateProofs ValueProofs.
From Coq Require Import ZifyBool ZifyNat ZifyN.

(** ** Induction *)

Fixpoint inner_deep (P : inner -> Prop)
  (H : forall ps ms cs, Forall (fun o => P (snd o)) cs -> P (mk_inner ps ms cs)) (i : inner) : P i :=
  match i with
  | mk_inner ps ms cs =>
      H ps ms cs ((fix go (l : list (str * inner)) : Forall (fun o => P (snd o)) l :=
        match l with
        | [] => Forall_nil _
        | o :: r => Forall_cons o (match o return P (snd o) with (_, c) => inner_deep P H c end) (go r)
        end) cs)
  end.
Fixpoint pcomp_deep (P : pcomp -> Prop)
  (H : forall n ps cs, Forall P cs -> P (mk_pcomp n ps cs)) (c : pcomp) : P c :=
  match c with
  | mk_pcomp n ps cs =>
      H n ps cs ((fix go (l : list pcomp) : Forall P l :=
        match l with [] => Forall_nil _ | x :: r => Forall_cons x (pcomp_deep P H x) (go r) end) cs)
  end.
Fixpoint tree_deep (P : tree -> Prop)
  (H : forall n ps cs, Forall P cs -> P (Node n ps cs)) (c : tree) : P c :=
  match c with
  | Node n ps cs =>
      H n ps cs ((fix go (l : list tree) : Forall P l :=
        match l with [] => Forall_nil _ | x :: r => Forall_cons x (tree_deep P H x) (go r) end) cs)
  end.

(** ** The tree as a function *)

Section Write.
  Context {U : Unicode} (e : env).

  Fixpoint tree_write (t : tree) : outcome str :=
    match t with
    | Node k ps cs =>
        obind (props_write ps) (fun pt =>
        obind ((fix go (cs : list tree) : outcome str :=
                  match cs with
                  | [] => Ret []
                  | c :: r => obind (tree_write c) (fun s => obind (go r) (fun t => Ret (s ++ t)))
                  end) cs) (fun ct =>
        Ret (lit "BEGIN:" ++ k ++ crlf ++ pt ++ ct ++ lit "END:" ++ k ++ crlf)))
    end.
  Fixpoint trees_write (cs : list tree) : outcome str :=
    match cs with
    | [] => Ret []
    | c :: r => obind (tree_write c) (fun s => obind (trees_write r) (fun t => Ret (s ++ t)))
    end.
  Lemma tree_write_eq : forall k ps cs, tree_write (Node k ps cs)
    = obind (props_write ps) (fun pt => obind (trees_write cs) (fun ct =>
      Ret (lit "BEGIN:" ++ k ++ crlf ++ pt ++ ct ++ lit "END:" ++ k ++ crlf))).
  Proof.
    reflexivity.
  Qed.

  Lemma props_write_spec : forall ps s, props_write ps = Ret s <->
    exists ts, Forall2 (fun p t => prop_write p = Ret t) ps ts /\ s = concat ts.
  Proof.
    induction ps as [|p ps IH]; intros s; cbn [props_write].
    - split.
      + intros H. injection H as <-. exists []. now split.
      + intros (ts & F & ->). now inversion F.
    - split.
      + destruct (prop_write p) as [t| |] eqn:E; cbn [obind]; try easy.
        destruct (props_write ps) as [r| |] eqn:E2; cbn [obind]; try easy.
        intros H. injection H as <-. destruct (proj1 (IH r) eq_refl) as (ts & F & ->).
        exists (t :: ts). split; [now constructor|easy].
      + intros (ts & F & ->). inversion F as [|? t ? r E F' ]; subst. rewrite E. cbn [obind].
        rewrite (proj2 (IH (concat r))) by eauto. easy.
  Qed.
  Lemma tree_write_spec : forall t s, tree_write t = Ret s <-> text_of t s.
  Proof.
    induction t as [k ps cs IH] using tree_deep. intros s. rewrite tree_write_eq.
    assert (T : forall s, trees_write cs = Ret s <-> exists ss, Forall2 text_of cs ss /\ s = concat ss).
    { clear s. induction IH as [|c cs Hc _ IH]; intros s; cbn [trees_write].
      - split.
        + intros H. injection H as <-. exists []. now split.
        + intros (ts & F & ->). now inversion F.
      - split.
        + destruct (tree_write c) as [t| |] eqn:E; cbn [obind]; try easy.
          destruct (trees_write cs) as [r| |] eqn:E2; cbn [obind]; try easy.
          intros H. injection H as <-. destruct (proj1 (IH r) eq_refl) as (ts & F & ->).
          exists (t :: ts). split; [constructor; [now apply Hc|easy]|easy].
        + intros (ts & F & ->). inversion F as [|? t ? r E F' ]; subst. apply Hc in E. rewrite E. cbn [obind].
          rewrite (proj2 (IH (concat r))) by eauto. easy. }
    split.
    - destruct (props_write ps) as [pt| |] eqn:E1; cbn [obind]; try easy.
      destruct (trees_write cs) as [ct| |] eqn:E2; cbn [obind]; try easy.
      intros H. injection H as <-. apply props_write_spec in E1 as (ts & F1 & ->).
      destruct (proj1 (T ct) eq_refl) as (ss & F2 & ->). now constructor.
    - intros H. inversion H as [? ? ts ? ss F1 F2]; subst.
      assert (E1 : props_write ps = Ret (concat ts)) by (apply props_write_spec; eauto).
      assert (E2 : trees_write cs = Ret (concat ss)) by (apply T; eauto).
      now rewrite E1, E2.
  Qed.

  (** The properties added for a component and the counter afterwards. *)
  Definition stamp_of (ps : list (str * property)) (n : nat) : list property * nat :=
    match map_get (lit "DTSTAMP") ps with
    | Some _ => ([], n) | None => ([utc_prop "DTSTAMP" (now_at e n)], S n) end.
  Definition uid_of (ps : list (str * property)) (n : nat) : list property * nat :=
    match map_get (lit "UID") ps with
    | Some _ => ([], n) | None => ([text_prop "UID" (fmt_uuid (uuid_at e n))], S n) end.

  Fixpoint stamp_tree (kind : str) (i : inner) (n : nat) {struct i} : tree * nat :=
    match i with
    | mk_inner ps ms cs =>
        let st := stamp_of ps n in
        let ud := uid_of ps (snd st) in
        let ct := (fix go (cs : list (str * inner)) (n : nat) : list tree * nat :=
                     match cs with
                     | [] => ([], n)
                     | (k, c) :: r =>
                         let t := stamp_tree k c n in
                         let ts := go r (snd t) in
                         (fst t :: fst ts, snd ts)
                     end) cs (snd ud) in
        (Node kind (fst st ++ map snd ps ++ fst ud ++ concat (map snd ms)) (fst ct), snd ct)
    end.
  Fixpoint stamp_trees (cs : list (str * inner)) (n : nat) : list tree * nat :=
    match cs with
    | [] => ([], n)
    | (k, c) :: r =>
        let t := stamp_tree k c n in
        let ts := stamp_trees r (snd t) in
        (fst t :: fst ts, snd ts)
    end.
  Lemma stamp_tree_eq : forall kind ps ms cs n, stamp_tree kind (mk_inner ps ms cs) n
    = let st := stamp_of ps n in
      let ud := uid_of ps (snd st) in
      let ct := stamp_trees cs (snd ud) in
      (Node kind (fst st ++ map snd ps ++ fst ud ++ concat (map snd ms)) (fst ct), snd ct).
  Proof.
    intros. cbn [stamp_tree].
    set (go := fix go (cs : list (str * inner)) (n : nat) : list tree * nat :=
                     match cs with
                     | [] => ([], n)
                     | (k, c) :: r =>
                         let t := stamp_tree k c n in
                         let ts := go r (snd t) in
                         (fst t :: fst ts, snd ts)
                     end).
    assert (G : forall cs n, go cs n = stamp_trees cs n).
    { clear. induction cs as [|[k c] cs IH]; intros n; [easy|]. cbn. now rewrite IH. }
    now rewrite G.
  Qed.

  Lemma fold_short : forall l, blen l <= 75 -> fold_line l = Ret l.
  Proof.
    intros l H. unfold fold_line. replace (blen l + 2) with (S (blen l + 1)) by lia.
    rewrite fold_loop_S. replace (blen l <=? LIMIT) with true by (unfold LIMIT; lia).
    rewrite Nat.sub_diag. destruct (slice_boundaries l 0 (blen l)) as [s E].
    - apply boundary_0.
    - apply boundary_spec. exists l, []. now rewrite app_nil_r.
    - lia.
    - rewrite E. apply slice_spec in E as (x & y & E & L1 & L2). destruct x; [|cbn in L1; pose proof (utf8_len_bounds n); lia].
      cbn in E, L2. f_equal. cbn. pose proof (f_equal blen E) as B. rewrite blen_app in B.
      assert (y = []) by (apply blen_zero; lia). subst y. now rewrite app_nil_r in E.
  Qed.

  Definition ascii (s : str) : Prop := Forall (fun c => (c < 128)%N) s.
  Lemma ascii_blen : forall s, ascii s -> blen s = length s.
  Proof.
    induction 1 as [|c s H _ IH]; [easy|]. cbn [blen length]. rewrite IH. unfold utf8_len.
    now replace (c <? 128)%N with true by lia.
  Qed.
  Lemma digits_ascii : forall s, forallb is_digit s = true -> ascii s.
  Proof.
    intros s H. apply Forall_forall. intros c I. rewrite forallb_forall in H. apply H, is_digit_range in I. lia.
  Qed.
  Lemma hex_spec : forall w n, length (hex w n) = w /\ Forall (fun c => (48 <= c < 127 /\ c <> BSL /\ c <> SEMI)%N) (hex w n).
  Proof.
    induction w as [|w IH]; intros n; cbn [hex]; [now split|]. destruct (IH (n / 16)%N) as [L F]. split.
    - rewrite app_length, L. cbn. lia.
    - apply Forall_app. split; [easy|]. constructor; [|easy]. unfold hex_digit.
      pose proof (N.mod_lt n 16 ltac:(easy)). unfold BSL, SEMI. destruct (n mod 16 <? 10)%N eqn:E; lia.
  Qed.
  Definition plain_char (c : char) : Prop := (32 <= c < 127 /\ c <> BSL /\ c <> SEMI /\ c <> COMMA /\ c <> LF)%N.
  Lemma uuid_spec : forall n, length (fmt_uuid n) = 36 /\ Forall plain_char (fmt_uuid n).
  Proof.
    intros n. unfold fmt_uuid. destruct (hex_spec 32 n) as [L F].
    assert (F' : Forall plain_char (hex 32 n)).
    { eapply Forall_impl; [|exact F]. intros c H. unfold plain_char, BSL, SEMI, COMMA, LF in *. cbn beta in H. lia. }
    assert (D : plain_char DASH) by (unfold plain_char, DASH, BSL, SEMI, COMMA, LF; lia).
    generalize dependent (hex 32 n). intros h L _ F'. clear n. split.
    - repeat (rewrite ?app_length, ?firstn_length, ?skipn_length; cbn [length]). rewrite L. reflexivity.
    - assert (K1 : forall a l, Forall plain_char l -> Forall plain_char (firstn a l)).
      { intros a l H. rewrite <- (firstn_skipn a l) in H. now apply Forall_app in H. }
      assert (K2 : forall a l, Forall plain_char l -> Forall plain_char (skipn a l)).
      { intros a l H. rewrite <- (firstn_skipn a l) in H. now apply Forall_app in H. }
      repeat match goal with
      | |- Forall _ (_ ++ _) => apply Forall_app; split
      | |- Forall _ (_ :: _) => constructor
      end; auto.
  Qed.
  Lemma escape_plain : forall s, Forall plain_char s -> escape_text s = s.
  Proof.
    intros s H. rewrite escape_wire. induction H as [|c s H _ IH]; [easy|].
    cbn [map wire flat_map]. unfold wire in IH. rewrite IH. unfold esc_piece.
    unfold plain_char in H. replace (c =? LF)%N with false by lia.
    now replace ((c =? BSL) || (c =? COMMA) || (c =? SEMI))%N with false by lia.
  Qed.

  Lemma uid_write : forall n, prop_write (text_prop "UID" (fmt_uuid n)) = Ret (lit "UID:" ++ fmt_uuid n ++ crlf).
  Proof.
    intros n. destruct (uuid_spec n) as [L F]. unfold prop_write, write_folded, prop_line.
    change (value_text (text_prop "UID" (fmt_uuid n))) with (escape_text (fmt_uuid n)).
    rewrite escape_plain by easy. cbn [text_prop p_key p_params]. unfold params_text. cbn [map concat app].
    rewrite fold_short; [reflexivity|]. rewrite ascii_blen.
    - rewrite app_length. cbn [length]. rewrite L. vm_compute. lia.
    - apply Forall_app. split; [now repeat constructor|]. constructor; [easy|].
      eapply Forall_impl; [|exact F]. unfold plain_char. cbn beta. intros. lia.
  Qed.

  Lemma pad_length : forall w n k, k <> 0 -> (n < 10 ^ N.of_nat k)%N -> length (pad w n) <= Nat.max w k.
  Proof.
    intros w n k Hk H. unfold pad. rewrite app_length, repeat_length.
    destruct (dec_spec n) as (_ & _ & _ & E & _). specialize (E k Hk H). lia.
  Qed.
  Lemma stamp_text_short : forall d, real_dt d -> (-262143 <= year (date_of d) <= 262142)%Z ->
    ascii (format_utc_date_time d) /\ length (format_utc_date_time d) <= 24.
  Proof.
    intros [d t] [R1 R2] Y. cbn [date_of time_of] in *. unfold format_utc_date_time, format_naive_date_time,
      fmt_date, fmt_time, fmt_year. cbn [date_of time_of].
    assert (P : forall w n, ascii (pad w n)) by (intros; apply digits_ascii, pad_digits).
    apply real_date_spec in R1 as [R11 R12]. unfold in_range in R11, R12.
    pose proof (days_le_31 (year d) (month d)). destruct R2 as (T1 & T2 & T3 & T4).
    assert (nano t / 1000000000 <= 1)%N.
    { apply N.lt_succ_r. apply N.div_lt_upper_bound; lia. }
    split.
    - repeat match goal with
      | |- ascii (pad _ _) => apply P
      | |- ascii (_ ++ _) => apply Forall_app; split; fold ascii
      | |- Forall _ (pad _ _) => apply P
      | |- Forall _ (_ ++ _) => apply Forall_app; split
      end; try (now repeat constructor).
      destruct ((0 <=? year d) && (year d <=? 9999))%Z; [apply P|]. constructor; [|apply P]. now destruct (year d <? 0)%Z.
    - repeat rewrite app_length.
      pose proof (pad_length 2 (month d) 2 ltac:(easy) ltac:(cbn; lia)).
      pose proof (pad_length 2 (day d) 2 ltac:(easy) ltac:(cbn; lia)).
      pose proof (pad_length 2 (hour t) 2 ltac:(easy) ltac:(cbn; lia)).
      pose proof (pad_length 2 (minute t) 2 ltac:(easy) ltac:(cbn; lia)).
      pose proof (pad_length 2 (second t + nano t / 1000000000) 2 ltac:(easy) ltac:(cbn; lia)).
      change (length (lit "T")) with 1. change (length (lit "Z")) with 1.
      pose proof (pad_length 4 (Z.to_N (year d)) 6 ltac:(easy) ltac:(cbn; lia)).
      pose proof (pad_length 4 (Z.abs_N (year d)) 6 ltac:(easy) ltac:(cbn; lia)).
      destruct ((0 <=? year d) && (year d <=? 9999))%Z; cbn [length]; cbn [Nat.max] in *; lia.
  Qed.
  Lemma stamp_write : forall d, real_dt d -> (-262143 <= year (date_of d) <= 262142)%Z ->
    prop_write (utc_prop "DTSTAMP" d) = Ret (lit "DTSTAMP:" ++ format_utc_date_time d ++ crlf).
  Proof.
    intros d R Y. destruct (stamp_text_short d R Y) as [A L]. unfold prop_write, write_folded, prop_line.
    change (value_text (utc_prop "DTSTAMP" d)) with (format_utc_date_time d).
    cbn [utc_prop text_prop p_key p_params]. unfold params_text. cbn [map concat app].
    rewrite fold_short; [reflexivity|]. rewrite ascii_blen.
    - rewrite app_length. cbn [length]. change (length (lit "DTSTAMP")) with 7. lia.
    - apply Forall_app. split; [now repeat constructor|]. now constructor.
  Qed.

  Lemma props_write_app : forall a b, props_write (a ++ b)
    = obind (props_write a) (fun s => obind (props_write b) (fun t => Ret (s ++ t))).
  Proof.
    induction a as [|p a IH]; intros b; cbn [props_write app obind].
    - destruct (props_write b); easy.
    - rewrite IH. destruct (prop_write p); cbn [obind]; try easy.
      destruct (props_write a); cbn [obind]; try easy. destruct (props_write b); cbn [obind]; try easy.
      now rewrite app_assoc.
  Qed.

  (** The nested loop of [inner_write]. *)
  Fixpoint inners_write (cs : list (str * inner)) (n : nat) : outcome (str * nat) :=
    match cs with
    | [] => Ret ([], n)
    | (k, c) :: r =>
        obind (inner_write e k c n) (fun '(s, n') =>
        obind (inners_write r n') (fun '(t, n'') => Ret (s ++ t, n'')))
    end.

  Hypothesis C : clock_ok e.

  Lemma inner_write_tree : forall i kind n,
    inner_write e kind i n
    = obind (tree_write (fst (stamp_tree kind i n))) (fun s => Ret (s, snd (stamp_tree kind i n))).
  Proof.
    induction i as [ps ms cs IH] using inner_deep. intros kind n. rewrite stamp_tree_eq. cbn zeta.
    cbn [inner_write]. cbn [fst snd]. rewrite tree_write_eq.
    set (go := fix go (cs : list (str * inner)) (n : nat) : outcome (str * nat) :=
                match cs with
                | [] => Ret ([], n)
                | (k, c) :: r =>
                    obind (inner_write e k c n) (fun '(s, n') =>
                    obind (go r n') (fun '(t, n'') => Ret (s ++ t, n'')))
                end).
    assert (G : forall n, go cs n
      = obind (trees_write (fst (stamp_trees cs n))) (fun s => Ret (s, snd (stamp_trees cs n)))).
    { clear - IH. induction IH as [|[k c] cs Hc _ IH]; intros n; [easy|].
      cbn [stamp_trees fst snd trees_write]. change (go ((k, c) :: cs) n) with
        (obind (inner_write e k c n) (fun '(s, n') => obind (go cs n') (fun '(t, n'') => Ret (s ++ t, n'')))).
      cbn [snd] in Hc. rewrite Hc. destruct (tree_write _); cbn [obind]; try easy.
      rewrite IH. destruct (trees_write _); easy. }
    assert (S1 : exists a, props_write (fst (stamp_of ps n)) = Ret a /\
      (match map_get (lit "DTSTAMP") ps with
       | Some _ => ([], n)
       | None => (lit "DTSTAMP:" ++ format_utc_date_time (now_at e n) ++ crlf, S n)
       end = (a, snd (stamp_of ps n)))).
    { unfold stamp_of. destruct (map_get (lit "DTSTAMP") ps); [now exists []|].
      eexists. split; [|reflexivity]. cbn [fst props_write]. destruct (C n) as [R Y].
      rewrite stamp_write by easy. cbn [obind]. now rewrite app_nil_r. }
    destruct S1 as (a & A1 & A2). rewrite A2. cbv iota beta.
    assert (S2 : exists b, props_write (fst (uid_of ps (snd (stamp_of ps n)))) = Ret b /\
      (match map_get (lit "UID") ps with
       | Some _ => ([], snd (stamp_of ps n))
       | None => (lit "UID:" ++ fmt_uuid (uuid_at e (snd (stamp_of ps n))) ++ crlf, S (snd (stamp_of ps n)))
       end = (b, snd (uid_of ps (snd (stamp_of ps n)))))).
    { unfold uid_of. destruct (map_get (lit "UID") ps); [now exists []|].
      eexists. split; [|reflexivity]. cbn [fst props_write].
      rewrite uid_write. cbn [obind]. now rewrite app_nil_r. }
    destruct S2 as (b & B1 & B2). rewrite B2. cbv iota beta.
    rewrite !props_write_app, A1, B1. cbn [obind].
    destruct (props_write (map snd ps)) as [pt| |]; cbn [obind]; try easy.
    destruct (props_write (concat (map snd ms))) as [mt| |]; cbn [obind]; try easy.
    rewrite G. destruct (trees_write _) as [ct| |]; cbn [obind]; try easy.
    now rewrite !app_assoc.
  Qed.
End Write.

(** ** Order *)

Lemma str_lt_cmp : forall a b, str_cmp a b = Lt <-> str_lt a b.
Proof.
  induction a as [|x a IH]; destruct b as [|y b]; cbn [str_cmp]; split; intros H; try easy; try (now inversion H); try (now constructor).
  - destruct (x ?= y)%N eqn:E; try easy.
    + apply N.compare_eq in E as ->. apply lt_tail. now apply IH.
    + apply lt_head, E.
  - inversion H; subst.
    + assert (x ?= y = Lt)%N as -> by easy. easy.
    + rewrite N.compare_refl. now apply IH.
Qed.
Lemma ksorted_ascending : forall V (m : list (str * V)), ksorted m -> ascending (map fst m).
Proof.
  induction 1 as [|k v m B _ IH]; [easy|]. cbn [map fst ascending]. split; [|easy].
  unfold below in B. apply Forall_map. eapply Forall_impl; [|exact B]. intros [k2 v2] H.
  now apply str_lt_cmp.
Qed.

(** ** Components that can be made *)

Inductive well_made : inner -> Prop :=
| Well_made : forall i, built i -> Forall (fun o => well_made (snd o)) (i_comps i) -> well_made i.

Lemma insert_multi_comps : forall l i, i_comps (fold_left insert_multi l i) = i_comps i.
Proof. induction l as [|p l IH]; intros i; [easy|]. cbn [fold_left]. now rewrite IH. Qed.
Lemma insert_multi_props : forall l i, i_props (fold_left insert_multi l i) = i_props i.
Proof. induction l as [|p l IH]; intros i; [easy|]. cbn [fold_left]. now rewrite IH. Qed.
Lemma built_multis : forall l i, built i -> built (fold_left insert_multi l i).
Proof. induction l as [|p l IH]; intros i H; [easy|]. cbn [fold_left]. apply IH. now apply built_multi. Qed.
Lemma built_appends : forall l i, built i -> built (fold_left append_property l i).
Proof. induction l as [|p l IH]; intros i H; [easy|]. cbn [fold_left]. apply IH. now apply built_append. Qed.
Lemma conv_props_append : forall l i, fold_left (fun m p => bt_insert (pr_name p) (conv_prop p) m) l (i_props i)
  = i_props (fold_left append_property (map conv_prop l) i).
Proof. induction l as [|p l IH]; intros i; [easy|]. cbn [fold_left map]. now rewrite <- IH. Qed.
Lemma conv_inner_comps : forall n ps cs,
  i_comps (conv_inner (mk_pcomp n ps cs)) = map (fun c => (pc_name c, conv_inner c)) cs.
Proof. intros. cbn [conv_inner]. now rewrite insert_multi_comps. Qed.
Lemma conv_inner_well : forall c, well_made (conv_inner c).
Proof.
  induction c as [n ps cs IH] using pcomp_deep. constructor.
  - cbn [conv_inner]. apply built_multis.
    change (@nil (str * property)) with (i_props inner_new). rewrite conv_props_append.
    pose proof (built_appends (map conv_prop (filter (fun p => negb (is_multi p)) ps)) inner_new built_new) as B.
    set (i := fold_left append_property _ _) in *. destruct B as [B1 B2 B3 B4]. split; cbn [i_props i_multi]; try easy; constructor.
  - rewrite conv_inner_comps. rewrite Forall_map. exact IH.
Qed.

Lemma made_well : forall i, made i -> well_made i.
Proof.
  fix F 2. intros i [|j c M S|c].
  - constructor; [apply built_new|constructor].
  - assert (W : well_made j) by (apply F, M). inversion W as [? B D]; subst. constructor; [now apply built_call|].
    rewrite do_call_comps. apply Forall_app. split; [easy|]. clear - F S.
    induction S as [|o l H _ IH]; constructor; [apply F, H|apply IH].
  - apply conv_inner_well.
Qed.

(** ** The arrangement *)

Section Arranged.
  Context (e : env).
  Lemma stamp_tree_arranged : forall i kind n, well_made i -> arranged e kind i (fst (stamp_tree e kind i n)).
  Proof.
    induction i as [ps ms cs IH] using inner_deep. intros kind n W. inversion W as [? [B1 B2 B3 B4] D]; subst.
    cbn [i_props i_multi i_comps] in *. rewrite stamp_tree_eq. cbn zeta. cbn [fst]. rewrite <- flat_map_concat_map.
    assert (K : map p_key (map snd ps) = map fst ps).
    { clear - B2. induction B2 as [|[k p] ps H _ IH]; [easy|]. cbn [map fst snd]. now rewrite IH, H. }
    constructor; cbn [i_props i_multi i_comps].
    - unfold stamp_of. destruct (map_get _ ps); [easy|]. cbn. eauto.
    - rewrite K. now apply ksorted_ascending.
    - intros p. split.
      + intros I. apply in_map_iff in I as ([k q] & <- & I). cbn [snd].
        rewrite Forall_forall in B2. rewrite (B2 _ I). now apply ksorted_get.
      + intros H. apply map_get_in in H. apply in_map_iff. now exists (p_key p, p).
    - unfold uid_of. destruct (map_get _ ps); [easy|]. cbn. eauto.
    - now apply ksorted_ascending.
    - intros key g. split; [now apply ksorted_get|apply map_get_in].
    - clear - IH D. generalize (snd (uid_of e ps (snd (stamp_of e ps n)))). intros m. revert m.
      induction IH as [|[k c] cs Hc _ IH]; intros m; [constructor|].
      inversion D; subst. cbn [stamp_trees fst snd] in *. constructor; [now apply Hc|now apply IH].
  Qed.
End Arranged.

Lemma component_text : forall (U : Unicode) e kind i n s n', made i -> clock_ok e ->
  inner_write e kind i n = Ret (s, n') -> exists t, arranged e kind i t /\ text_of t s.
Proof.
  intros U e kind i n s n' M C H. rewrite inner_write_tree in H by easy.
  destruct (tree_write _) as [r| |] eqn:E; cbn [obind] in H; try easy. injection H as -> _.
  exists (fst (stamp_tree e kind i n)). split; [now apply stamp_tree_arranged, made_well|now apply tree_write_spec].
Qed.
(** The text is written unless one of the properties cannot be folded. *)
Lemma component_text_ret : forall (U : Unicode) e kind i n, clock_ok e ->
  (exists r, inner_write e kind i n = Ret r)
  <-> exists s, text_of (fst (stamp_tree e kind i n)) s.
Proof.
  intros U e kind i n C. rewrite inner_write_tree by easy. split.
  - intros [r H]. destruct (tree_write _) as [s| |] eqn:E; cbn [obind] in H; try easy. exists s. now apply tree_write_spec.
  - intros [s H]. apply tree_write_spec in H. rewrite H. cbn. eauto.
Qed.

(** ** DTSTAMP and UID *)

Lemma count_key_app : forall k a b, count_key k (a ++ b) = count_key k a + count_key k b.
Proof. intros. unfold count_key. now rewrite filter_app, app_length. Qed.
Lemma count_key_0 : forall k l, (forall p, In p l -> p_key p <> lit k) -> count_key k l = 0.
Proof.
  intros k l H. unfold count_key. induction l as [|p l IH]; [easy|]. cbn [filter].
  assert (str_eqb (p_key p) (lit k) = false) as -> by (apply str_eqb_neq, H; now left).
  apply IH. intros q I. apply H. now right.
Qed.
Lemma str_lt_irrefl : forall a, ~ str_lt a a.
Proof. intros a H. apply str_lt_cmp in H. now rewrite str_cmp_refl in H. Qed.
Lemma count_key_asc : forall k l p, ascending (map p_key l) -> In p l -> p_key p = lit k -> count_key k l = 1.
Proof.
  intros k l p. unfold count_key. generalize (lit k). clear k. intros k. induction l as [|q l IH]; intros A I E; [easy|].
  cbn [map ascending] in A. destruct A as [A1 A2]. cbn [filter]. destruct I as [->|I].
  - rewrite E, str_eqb_refl. cbn [length]. f_equal. clear - A1 E.
    induction l as [|q l IH]; [easy|]. cbn [filter map] in *. inversion A1; subst.
    destruct (str_eqb (p_key q) (p_key p)) eqn:F; [|now apply IH].
    apply str_eqb_eq in F. rewrite F in *. now apply str_lt_irrefl in H1.
  - destruct (str_eqb (p_key q) k) eqn:F; [|now apply IH]. exfalso. apply str_eqb_eq in F.
    rewrite Forall_forall in A1. assert (L : str_lt (p_key q) (p_key p)) by (apply A1, in_map, I).
    rewrite E, F in L. now apply str_lt_irrefl in L.
Qed.

Lemma arranged_stamped : forall e t kind i, well_made i -> arranged e kind i t -> no_multi_stamp i -> stamped_once t.
Proof.
  intros e. induction t as [k ps cs IH] using tree_deep. intros kind i W A N.
  inversion A as [k' i' stamp qs u gs cs' A1 A2 A3 A4 A5 A6 A7]; subst.
  inversion N as [? N1 N2 N3]; subst. inversion W as [? [B1 B2 B3 B4] D]; subst.
  assert (Z : forall key, map_get (lit key) (i_multi i) = None -> count_key key (flat_map snd gs) = 0).
  { intros key H. apply count_key_0. intros p I E. apply in_flat_map in I as ([k2 g] & I & J). cbn [snd] in J.
    apply A6 in I. pose proof (map_get_in _ _ _ _ I) as I2. rewrite Forall_forall in B4.
    specialize (B4 _ I2). cbn in B4. destruct B4 as [_ B4]. rewrite Forall_forall in B4.
    apply B4 in J. congruence. }
  assert (Q : forall key, count_key key qs = match map_get (lit key) (i_props i) with Some _ => 1 | None => 0 end).
  { intros key. destruct (map_get (lit key) (i_props i)) as [p|] eqn:E.
    - pose proof (map_get_in _ _ _ _ E) as I2. rewrite Forall_forall in B2. specialize (B2 _ I2). cbn in B2.
      apply (count_key_asc key qs p A2); [|easy]. apply A3. now rewrite B2.
    - apply count_key_0. intros p I F. apply A3 in I. congruence. }
  constructor.
  - rewrite !count_key_app, (Z "DTSTAMP"%string N1), (Q "DTSTAMP"%string).
    destruct (map_get (lit "DTSTAMP") (i_props i)).
    + subst stamp. destruct (map_get (lit "UID") (i_props i)); [now subst u|]. destruct A4 as [m ->]. easy.
    + destruct A1 as [m ->]. destruct (map_get (lit "UID") (i_props i)); [now subst u|]. destruct A4 as [m' ->]. easy.
  - rewrite !count_key_app, (Z "UID"%string N2), (Q "UID"%string).
    destruct (map_get (lit "DTSTAMP") (i_props i)).
    + subst stamp. destruct (map_get (lit "UID") (i_props i)); [now subst u|]. destruct A4 as [m ->]. easy.
    + destruct A1 as [m ->]. destruct (map_get (lit "UID") (i_props i)); [now subst u|]. destruct A4 as [m' ->]. easy.
  - clear - IH A7 N3 D. revert IH N3 D. induction A7 as [|o t l ts H _ IH2]; intros IH N3 D; [constructor|].
    inversion IH; inversion N3; inversion D; subst. constructor; [|now apply IH2].
    match goal with K : forall kind i, _ |- _ => eapply K; eauto end.
Qed.
Lemma component_stamped : forall (U : Unicode) e kind i n s n', made i -> clock_ok e ->
  no_multi_stamp i -> inner_write e kind i n = Ret (s, n') ->
  exists t, arranged e kind i t /\ text_of t s /\ stamped_once t.
Proof.
  intros U e kind i n s n' M C N H. destruct (component_text U e kind i n s n' M C H) as (t & A & T).
  exists t. split; [easy|]. split; [easy|]. eapply arranged_stamped; eauto. now apply made_well.
Qed.
