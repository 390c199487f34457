(** Which lines a change changes. *)
From Verif Require Import Str StrFacts Spec Fold Text ValueTypes Property Chrono DateTime
  Component Alarm Calendar Nom Parser SpecBuild SpecTree SpecDiff BuildProofs TreeProofs.
From Coq Require Import ZifyBool ZifyNat ZifyN.

Lemma whole_app : forall a b, whole_lines a -> whole_lines b -> whole_lines (a ++ b).
Proof. intros a b A [->|[t ->]]; [now rewrite app_nil_r|]. right. exists (a ++ t). now rewrite app_assoc. Qed.
Lemma whole_crlf : forall a, whole_lines (a ++ crlf).
Proof. intros a. right. now exists a. Qed.
Lemma after_whole : forall a b, whole_lines b -> exists c, (a ++ crlf) ++ b = c ++ crlf.
Proof. intros a b [->|[t ->]]; [exists a; now rewrite app_nil_r|]. exists ((a ++ crlf) ++ t). now rewrite app_assoc. Qed.

Section Diff.
  Context {U : Unicode} (e : env).

  Lemma prop_whole : forall p s, prop_write p = Ret s -> whole_lines s.
  Proof. intros p s H. unfold prop_write, write_folded in H. destruct (fold_line _) as [t| |]; cbn [obind] in H; try easy. injection H as <-. apply whole_crlf. Qed.
  Lemma props_whole : forall ps s, props_write ps = Ret s -> whole_lines s.
  Proof.
    induction ps as [|p ps IH]; intros s H; cbn [props_write] in H; [injection H as <-; now left|].
    destruct (prop_write p) as [a| |] eqn:A; cbn [obind] in H; try easy. destruct (props_write ps) as [b| |]; cbn [obind] in H; try easy. injection H as <-.
    apply whole_app; [now apply (prop_whole p)|now apply IH].
  Qed.
  Lemma props_split : forall a b s, props_write (a ++ b) = Ret s <-> exists x y, props_write a = Ret x /\ props_write b = Ret y /\ s = x ++ y.
  Proof.
    intros a b s. rewrite props_write_app. split.
    - destruct (props_write a) as [x| |]; cbn [obind]; try easy. destruct (props_write b) as [y| |]; cbn [obind]; try easy. intros H. injection H as <-. now exists x, y.
    - intros (x & y & -> & -> & ->). reflexivity.
  Qed.
  Lemma props_one : forall p s, props_write [p] = Ret s <-> prop_write p = Ret s.
  Proof. intros p s. cbn [props_write]. destruct (prop_write p) as [t| |]; cbn [obind]; try easy. now rewrite app_nil_r. Qed.

  (** [inner_write] as a relation. *)
  Definition stamp_text (ps : list (str * property)) (n : nat) : str :=
    match map_get (lit "DTSTAMP") ps with Some _ => [] | None => lit "DTSTAMP:" ++ format_utc_date_time (now_at e n) ++ crlf end.
  Definition stamp_next (ps : list (str * property)) (n : nat) : nat := match map_get (lit "DTSTAMP") ps with Some _ => n | None => S n end.
  Definition uid_text (ps : list (str * property)) (n : nat) : str :=
    match map_get (lit "UID") ps with Some _ => [] | None => lit "UID:" ++ fmt_uuid (uuid_at e n) ++ crlf end.
  Definition uid_next (ps : list (str * property)) (n : nat) : nat := match map_get (lit "UID") ps with Some _ => n | None => S n end.
  Lemma inner_ret : forall k ps ms cs n s m, inner_write e k (mk_inner ps ms cs) n = Ret (s, m) <->
    exists pt mt ct, props_write (map snd ps) = Ret pt /\ props_write (concat (map snd ms)) = Ret mt /\ inners_write e cs (uid_next ps (stamp_next ps n)) = Ret (ct, m)
      /\ s = (lit "BEGIN:" ++ k) ++ crlf ++ stamp_text ps n ++ pt ++ uid_text ps (stamp_next ps n) ++ mt ++ ct ++ lit "END:" ++ k ++ crlf.
  Proof.
    intros k ps ms cs n s m. cbn [inner_write].
    change (fix go (cs : list (str * inner)) (n : nat) : outcome (str * nat) :=
                match cs with
                | [] => Ret ([], n)
                | (k, c) :: r =>
                    obind (inner_write e k c n) (fun '(s, n') =>
                    obind (go r n') (fun '(t, n'') => Ret (s ++ t, n'')))
                end) with (inners_write e).
    replace (match map_get (lit "DTSTAMP") ps with Some _ => ([], n) | None => (lit "DTSTAMP:" ++ format_utc_date_time (now_at e n) ++ crlf, S n) end)
      with (stamp_text ps n, stamp_next ps n) by (unfold stamp_text, stamp_next; now destruct (map_get (lit "DTSTAMP") ps)).
    replace (match map_get (lit "UID") ps with Some _ => ([], stamp_next ps n) | None => (lit "UID:" ++ fmt_uuid (uuid_at e (stamp_next ps n)) ++ crlf, S (stamp_next ps n)) end)
      with (uid_text ps (stamp_next ps n), uid_next ps (stamp_next ps n)) by (unfold uid_text, uid_next; now destruct (map_get (lit "UID") ps)).
    split.
    - destruct (props_write (map snd ps)) as [pt| |]; cbn [obind]; try easy. destruct (props_write (concat (map snd ms))) as [mt| |]; cbn [obind]; try easy.
      destruct (inners_write e cs _) as [[ct m']| |] eqn:C; cbn [obind]; try easy. intros H. injection H as <- <-. exists pt, mt, ct. repeat (split; [easy|]). now rewrite <- !app_assoc.
    - intros (pt & mt & ct & -> & -> & C & ->). cbn [obind]. rewrite C. cbn [obind]. now rewrite <- !app_assoc.
  Qed.
  Lemma inners_split : forall a b n s m, inners_write e (a ++ b) n = Ret (s, m) <->
    exists x l y, inners_write e a n = Ret (x, l) /\ inners_write e b l = Ret (y, m) /\ s = x ++ y.
  Proof.
    induction a as [|[k c] a IH]; intros b n s m; cbn [app inners_write].
    - split; [intros H; now exists [], n, s|]. intros (x & l & y & H & Y & ->). injection H as <- <-. exact Y.
    - split.
      + destruct (inner_write e k c n) as [[t l]| |]; cbn [obind]; try easy. destruct (inners_write e (a ++ b) l) as [[r l']| |] eqn:E; cbn [obind]; try easy. intros H. injection H as <- <-.
        apply IH in E as (x & l2 & y & X & Y & ->). exists (t ++ x), l2, y. rewrite X. cbn [obind]. rewrite <- app_assoc. easy.
      + intros (x & l & y & X & Y & ->). destruct (inner_write e k c n) as [[t l1]| |]; cbn [obind] in *; try easy.
        destruct (inners_write e a l1) as [[r l']| |] eqn:E; cbn [obind] in X; try easy. injection X as <- <-.
        assert (Z : inners_write e (a ++ b) l1 = Ret (r ++ y, m)) by (apply IH; now exists r, l', y). rewrite Z. cbn [obind]. now rewrite app_assoc.
  Qed.
  Lemma inners_one : forall k c n r, inners_write e [(k, c)] n = Ret r <-> inner_write e k c n = Ret r.
  Proof. intros k c n r. cbn [inners_write]. destruct (inner_write e k c n) as [[t l]| |]; cbn [obind]; try easy. now rewrite app_nil_r. Qed.
  Lemma inner_whole : forall i k n s m, inner_write e k i n = Ret (s, m) -> whole_lines s.
  Proof. intros [ps ms cs] k n s m H. apply inner_ret in H as (pt & mt & ct & _ & _ & _ & ->). rewrite !app_assoc. apply whole_crlf. Qed.
  Lemma inners_whole : forall cs n s m, inners_write e cs n = Ret (s, m) -> whole_lines s.
  Proof.
    induction cs as [|[k c] cs IH]; intros n s m H; cbn [inners_write] in H; [injection H as <- _; now left|].
    destruct (inner_write e k c n) as [[t l]| |] eqn:E; cbn [obind] in H; try easy. destruct (inners_write e cs l) as [[r l']| |] eqn:F; cbn [obind] in H; try easy. injection H as <- _.
    apply whole_app; [eapply inner_whole; eauto|eapply IH; eauto].
  Qed.
  Lemma stamp_whole : forall ps n, whole_lines (stamp_text ps n).
  Proof. intros ps n. unfold stamp_text. destruct (map_get _ _); [now left|]. rewrite app_assoc. apply whole_crlf. Qed.
  Lemma uid_whole : forall ps n, whole_lines (uid_text ps n).
  Proof. intros ps n. unfold uid_text. destruct (map_get _ _); [now left|]. rewrite app_assoc. apply whole_crlf. Qed.

  (** Where [bt_insert] inserts. *)
  Lemma insert_place : forall V k (v : V) m, ksorted m ->
    exists a b, bt_insert k v m = a ++ (k, v) :: b /\ match map_get k m with Some w => m = a ++ (k, w) :: b | None => m = a ++ b end.
  Proof.
    intros V k v m S. induction S as [|l w m B S IH]; [now exists [], []|]. cbn [bt_insert map_get].
    destruct (str_cmp k l) eqn:E.
    - apply str_cmp_eq in E as ->. rewrite str_eqb_refl. now exists [], m.
    - assert (N : str_eqb k l = false) by (apply str_eqb_neq; intros ->; rewrite str_cmp_refl in E; discriminate E). rewrite N.
      assert (G : map_get k m = None).
      { clear - B E. unfold below in B. induction m as [|[j x] m IH]; [easy|]. inversion B as [|? ? H B']; subst. cbn [map_get].
        assert (N : str_eqb k j = false). { apply str_eqb_neq. intros ->. cbn [fst] in H. rewrite str_cmp_antisym, H in E. discriminate E. }
        rewrite N. now apply IH. }
      rewrite G. exists [], ((l, w) :: m). easy.
    - assert (N : str_eqb k l = false) by (apply str_eqb_neq; intros ->; rewrite str_cmp_refl in E; discriminate E). rewrite N.
      destruct IH as (a & b & I & M). exists ((l, w) :: a), b. rewrite I. split; [easy|]. destruct (map_get k m); now rewrite M.
  Qed.

  Lemma changed_in : forall old new s s' h t, changed old new s s' -> changed old new (h ++ s ++ t) (h ++ s' ++ t).
  Proof.
    intros old new s s' h t (A & B & a & b & -> & ->). split; [easy|]. split; [easy|]. exists (h ++ a), (b ++ t). now rewrite <- !app_assoc.
  Qed.
  Lemma changed_at : forall old new h w b, whole_lines old -> whole_lines new -> whole_lines w ->
    changed old new (h ++ crlf ++ w ++ old ++ b) (h ++ crlf ++ w ++ new ++ b).
  Proof.
    intros old new h w b A B C. split; [easy|]. split; [easy|]. destruct (after_whole h w C) as [c E]. exists c, b. rewrite <- E. now rewrite <- !app_assoc.
  Qed.
  Theorem inner_changed : forall old new i j, edited e old new i j -> well_made i -> forall k n s m, inner_write e k i n = Ret (s, m) ->
    exists s', inner_write e k j n = Ret (s', m) /\ changed old new s s'.
  Proof.
    intros old new i j E. induction E as [[ps ms cs] q new G D1 D2 Q|[ps ms cs] p q old new G P Q|[ps ms cs] q new Q|[ps ms cs] [ok oi] new O|ps ms a k0 c d b old new E IH];
      intros W k n s m H; inversion W as [? [B1 _ B3 _] C]; subst; apply inner_ret in H as (pt & mt & ct & P1 & P2 & P3 & ->); cbn [i_props i_multi i_comps] in *.
    - unfold append_property. cbn [i_props i_multi i_comps]. destruct (insert_place _ (p_key q) q ps B1) as (x & y & I & M). rewrite G in M.
      assert (K : forall l, l <> p_key q -> map_get l (bt_insert (p_key q) q ps) = map_get l ps) by (intros l N; now apply map_get_bt_other).
      assert (P1' := P1). rewrite M, map_app in P1'. apply props_split in P1' as (t & u & T & V & ->). eexists. split.
      + apply inner_ret. exists (t ++ new ++ u), mt, ct. split; [rewrite I, map_app; apply props_split; exists t, (new ++ u); split; [easy|]; split; [|easy]; cbn [map snd]; change (q :: map snd y) with ([q] ++ map snd y);
          apply props_split; exists new, u; split; [now apply props_one|easy]|].
        split; [easy|]. unfold uid_next, stamp_next. rewrite !K by (intros F; first [now apply D1|now apply D2]). split; [exact P3|reflexivity].
      + unfold stamp_text, uid_text, stamp_next. rewrite !K by (intros F; first [now apply D1|now apply D2]). fold (stamp_text ps n) (stamp_next ps n) (uid_text ps (stamp_next ps n)).
        rewrite <- !app_assoc. rewrite (app_assoc (lit "BEGIN:") k). rewrite !(app_assoc (stamp_text ps n) t).
        change (changed [] new ((lit "BEGIN:" ++ k) ++ crlf ++ (stamp_text ps n ++ t) ++ [] ++ u ++ uid_text ps (stamp_next ps n) ++ mt ++ ct ++ lit "END:" ++ k ++ crlf)
          ((lit "BEGIN:" ++ k) ++ crlf ++ (stamp_text ps n ++ t) ++ new ++ u ++ uid_text ps (stamp_next ps n) ++ mt ++ ct ++ lit "END:" ++ k ++ crlf)).
        apply changed_at; [now left|now apply (prop_whole q)|]. apply whole_app; [apply stamp_whole|now apply (props_whole (map snd x))].
    - unfold append_property. cbn [i_props i_multi i_comps]. destruct (insert_place _ (p_key q) q ps B1) as (x & y & I & M). rewrite G in M.
      assert (K : forall l, match map_get l (bt_insert (p_key q) q ps) with Some _ => true | None => false end = match map_get l ps with Some _ => true | None => false end).
      { intros l. destruct (str_eqb l (p_key q)) eqn:F; [apply str_eqb_eq in F as ->; now rewrite map_get_bt_same, G|].
        rewrite map_get_bt_other; [easy|]. intros ->. now rewrite str_eqb_refl in F. }
      assert (P1' := P1). rewrite M, map_app in P1'. apply props_split in P1' as (t & u & T & V & ->). cbn [map snd] in V. change (p :: map snd y) with ([p] ++ map snd y) in V.
      apply props_split in V as (o & u' & O & V & ->). apply props_one in O. rewrite P in O. injection O as <-.
      assert (K1 : forall l, stamp_text (bt_insert (p_key q) q ps) l = stamp_text ps l /\ stamp_next (bt_insert (p_key q) q ps) l = stamp_next ps l
                          /\ uid_text (bt_insert (p_key q) q ps) l = uid_text ps l /\ uid_next (bt_insert (p_key q) q ps) l = uid_next ps l).
      { intros l. unfold stamp_text, stamp_next, uid_text, uid_next. pose proof (K (lit "DTSTAMP")) as KD. pose proof (K (lit "UID")) as KU.
        destruct (map_get (lit "DTSTAMP") (bt_insert _ _ _)), (map_get (lit "DTSTAMP") ps), (map_get (lit "UID") (bt_insert _ _ _)), (map_get (lit "UID") ps); easy. }
      eexists. split.
      + apply inner_ret. exists (t ++ new ++ u'), mt, ct. split; [rewrite I, map_app; apply props_split; exists t, (new ++ u'); split; [easy|]; split; [|easy]; cbn [map snd]; change (q :: map snd y) with ([q] ++ map snd y);
          apply props_split; exists new, u'; split; [now apply props_one|easy]|].
        split; [easy|]. destruct (K1 n) as (_ & -> & _ & _). destruct (K1 (stamp_next ps n)) as (_ & _ & _ & ->). split; [exact P3|reflexivity].
      + destruct (K1 n) as (Ka & Kb & _ & _). destruct (K1 (stamp_next ps n)) as (_ & _ & Kc & _). rewrite ?Kb, ?Ka, ?Kc.
        rewrite <- !app_assoc. rewrite (app_assoc (lit "BEGIN:") k). rewrite !(app_assoc (stamp_text ps n) t).
        apply changed_at; [now apply (prop_whole p)|now apply (prop_whole q)|]. apply whole_app; [apply stamp_whole|now apply (props_whole (map snd x))].
    - unfold insert_multi. cbn [i_props i_multi i_comps]. set (v := match map_get (p_key q) ms with Some v => v ++ [q] | None => [q] end).
      destruct (insert_place _ (p_key q) v ms B3) as (x & y & I & M).
      assert (S1 : exists l r, concat (map snd ms) = l ++ r /\ concat (map snd (bt_insert (p_key q) v ms)) = l ++ [q] ++ r).
      { rewrite I. subst v. destruct (map_get (p_key q) ms) as [w|] eqn:G; rewrite M, !map_app, !concat_app; cbn [map snd concat].
        - exists (concat (map snd x) ++ w), (concat (map snd y)). now rewrite <- !app_assoc.
        - exists (concat (map snd x)), (concat (map snd y)). easy. }
      destruct S1 as (l & r & L1 & L2). rewrite L1 in P2. apply props_split in P2 as (t & u & T & V & ->). eexists. split.
      + apply inner_ret. exists pt, (t ++ new ++ u), ct. split; [easy|]. split; [rewrite L2; apply props_split; exists t, (new ++ u); split; [easy|]; split; [|easy];
          apply props_split; exists new, u; split; [now apply props_one|easy]|]. split; [exact P3|reflexivity].
      + rewrite <- !app_assoc. rewrite (app_assoc (lit "BEGIN:") k).
        replace (stamp_text ps n ++ pt ++ uid_text ps (stamp_next ps n) ++ t ++ u ++ ct ++ lit "END:" ++ k ++ crlf)
          with ((stamp_text ps n ++ pt ++ uid_text ps (stamp_next ps n) ++ t) ++ [] ++ u ++ ct ++ lit "END:" ++ k ++ crlf) by (rewrite <- !app_assoc; reflexivity).
        replace (stamp_text ps n ++ pt ++ uid_text ps (stamp_next ps n) ++ t ++ new ++ u ++ ct ++ lit "END:" ++ k ++ crlf)
          with ((stamp_text ps n ++ pt ++ uid_text ps (stamp_next ps n) ++ t) ++ new ++ u ++ ct ++ lit "END:" ++ k ++ crlf) by (rewrite <- !app_assoc; reflexivity).
        apply changed_at; [now left|now apply (prop_whole q)|]. repeat apply whole_app; [apply stamp_whole|eapply props_whole; eauto|apply uid_whole|now apply (props_whole l)].
    - unfold append_component. cbn [i_props i_multi i_comps fst snd] in *. eexists. split.
      + apply inner_ret. exists pt, mt, (ct ++ new). split; [easy|]. split; [easy|]. split; [|reflexivity]. apply inners_split. exists ct, m, new. split; [exact P3|].
        split; [|easy]. apply inners_one. apply O.
      + rewrite <- !app_assoc. rewrite (app_assoc (lit "BEGIN:") k).
        replace (stamp_text ps n ++ pt ++ uid_text ps (stamp_next ps n) ++ mt ++ ct ++ lit "END:" ++ k ++ crlf)
          with ((stamp_text ps n ++ pt ++ uid_text ps (stamp_next ps n) ++ mt ++ ct) ++ [] ++ lit "END:" ++ k ++ crlf) by (rewrite <- !app_assoc; reflexivity).
        replace (stamp_text ps n ++ pt ++ uid_text ps (stamp_next ps n) ++ mt ++ ct ++ new ++ lit "END:" ++ k ++ crlf)
          with ((stamp_text ps n ++ pt ++ uid_text ps (stamp_next ps n) ++ mt ++ ct) ++ new ++ lit "END:" ++ k ++ crlf) by (rewrite <- !app_assoc; reflexivity).
        apply changed_at; [now left|eapply inner_whole; apply (O 0)|].
        repeat apply whole_app; [apply stamp_whole|eapply props_whole; eauto|apply uid_whole|eapply props_whole; eauto|eapply inners_whole; eauto].
    - apply Forall_app in C as [_ C]. inversion C as [|? ? C1 _]; subst. cbn [snd] in C1. apply inners_split in P3 as (x & l & y & X & Y & ->).
      change ((k0, c) :: b) with ([(k0, c)] ++ b) in Y. apply inners_split in Y as (t & l' & z & T & Z & ->). apply inners_one in T.
      destruct (IH C1 _ _ _ _ T) as (t' & T' & H). eexists. split.
      + apply inner_ret. exists pt, mt, (x ++ t' ++ z). split; [easy|]. split; [easy|]. split; [|reflexivity]. apply inners_split. exists x, l, (t' ++ z). split; [easy|]. split; [|easy].
        change ((k0, d) :: b) with ([(k0, d)] ++ b). apply inners_split. exists t', l', z. split; [now apply inners_one|easy].
      + pose proof (changed_in old new t t' ((lit "BEGIN:" ++ k) ++ crlf ++ stamp_text ps n ++ pt ++ uid_text ps (stamp_next ps n) ++ mt ++ x) (z ++ lit "END:" ++ k ++ crlf) H) as R.
        rewrite <- !app_assoc in *. exact R.
  Qed.

  Lemma ccs_inners : forall cs n, ccs_write e cs n = inners_write e (map (fun c => (cc_kind c, cc_inner c)) cs) n.
  Proof. induction cs as [|c cs IH]; intros n; [easy|]. cbn [ccs_write map inners_write]. unfold cc_write. destruct (inner_write e (cc_kind c) (cc_inner c) n) as [[t l]| |]; cbn [obind]; try easy. now rewrite IH. Qed.
  Lemma cal_ret : forall c s, cal_write e c = Ret s <-> exists pt ct m, props_write (c_props c) = Ret pt /\ inners_write e (map (fun c => (cc_kind c, cc_inner c)) (c_comps c)) 0 = Ret (ct, m)
    /\ s = lit "BEGIN:VCALENDAR" ++ crlf ++ pt ++ ct ++ lit "END:VCALENDAR" ++ crlf.
  Proof.
    intros c s. unfold cal_write. rewrite ccs_inners. split.
    - destruct (props_write (c_props c)) as [pt| |]; cbn [obind]; try easy. destruct (inners_write e _ 0) as [[ct m]| |] eqn:C; cbn [obind]; try easy. intros H. injection H as <-. now exists pt, ct, m.
    - intros (pt & ct & m & -> & -> & ->). reflexivity.
  Qed.
  Theorem cal_changed : forall old new c c' s, cal_edited e old new c c' -> Forall (fun x => made (cc_inner x)) (c_comps c) -> cal_write e c = Ret s ->
    exists s', cal_write e c' = Ret s' /\ changed old new s s'.
  Proof.
    intros old new c c' s E M H. apply cal_ret in H as (pt & ct & m & P & C & ->). destruct E as [[ps cs] q new Q|ps a x y b old new K E]; cbn [c_props c_comps] in *.
    - eexists. split.
      + apply cal_ret. cbn [cal_append_property c_props c_comps]. exists (pt ++ new), ct, m. split; [apply props_split; exists pt, new; split; [easy|]; split; [now apply props_one|easy]|]. split; [exact C|reflexivity].
      + rewrite <- !app_assoc. apply (changed_at [] new (lit "BEGIN:VCALENDAR") pt); [now left|now apply (prop_whole q)|now apply (props_whole ps)].
    - apply Forall_app in M as [_ M]. inversion M as [|? ? M1 _]; subst. rewrite map_app in C. cbn [map] in C. apply inners_split in C as (u & l & v & X & Y & ->).
      change ((cc_kind x, cc_inner x) :: map (fun c => (cc_kind c, cc_inner c)) b) with ([(cc_kind x, cc_inner x)] ++ map (fun c => (cc_kind c, cc_inner c)) b) in Y.
      apply inners_split in Y as (t & l' & z & T & Z & ->). apply inners_one in T. destruct (inner_changed _ _ _ _ E (made_well _ M1) _ _ _ _ T) as (t' & T' & H). eexists. split.
      + apply cal_ret. cbn [c_props c_comps]. exists pt, (u ++ t' ++ z), m. split; [easy|]. split; [|reflexivity]. rewrite map_app. cbn [map]. apply inners_split. exists u, l, (t' ++ z). split; [easy|]. split; [|easy].
        change ((cc_kind y, cc_inner y) :: map (fun c => (cc_kind c, cc_inner c)) b) with ([(cc_kind y, cc_inner y)] ++ map (fun c => (cc_kind c, cc_inner c)) b).
        apply inners_split. exists t', l', z. rewrite <- K. split; [now apply inners_one|easy].
      + pose proof (changed_in old new t t' (lit "BEGIN:VCALENDAR" ++ crlf ++ pt ++ u) (z ++ lit "END:VCALENDAR" ++ crlf) H) as R. rewrite <- !app_assoc in *. exact R.
  Qed.
  Theorem cal_pushed : forall c s, cal_write e c = Ret s -> exists a n, s = a ++ lit "END:VCALENDAR" ++ crlf
    /\ forall x new m, cc_write e x n = Ret (new, m) -> cal_write e (cal_push c x) = Ret (a ++ new ++ lit "END:VCALENDAR" ++ crlf).
  Proof.
    intros c s H. apply cal_ret in H as (pt & ct & m & P & C & ->). exists (lit "BEGIN:VCALENDAR" ++ crlf ++ pt ++ ct), m. split; [now rewrite <- !app_assoc|].
    intros x new m' X. apply cal_ret. destruct c as [ps cs]. cbn [cal_push c_props c_comps] in *. exists pt, (ct ++ new), m'. split; [easy|]. split.
    - rewrite map_app. apply inners_split. exists ct, m, new. split; [easy|]. split; [|easy]. now apply inners_one.
    - now rewrite <- !app_assoc.
  Qed.
End Diff.
