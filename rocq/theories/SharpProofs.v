(** Proofs of exact versions. *)
From Verif Require Import Str StrFacts Spec Fold Text ValueTypes Property Chrono DateTime Component Calendar Nom Parser
  SpecBuild SpecDate SpecTree SpecText SpecFold SpecError SpecSharp SpecDoc SpecConv SpecRound SpecSurvive UnfoldProofs FoldProofs CutProofs MessageProofs RoundChecks SurviveProofs.
From Coq Require Import ZifyBool ZifyNat ZifyN.

(** ** Unfolding *)
Lemma unfold_mark : forall c r, Spec.blank c -> unfold (CR :: LF :: c :: r) = unfold r /\ unfold (LF :: c :: r) = unfold r.
Proof.
  intros c r [->| ->]; split; [apply unfold_crlf_sp|apply unfold_lf_sp|apply unfold_crlf_tab|apply unfold_lf_tab].
Qed.
Lemma mark_before_cr : forall p r, p <> [] -> fold_mark (p ++ CR :: r) -> fold_mark p.
Proof.
  intros p r N (c & q & B & [E|E]).
  - destruct p as [|a [|b [|d p]]]; [easy| | |]; cbn [app] in E; injection E.
    + intros _ E2 _. discriminate E2.
    + intros _ <- _ _. destruct B as [B|B]; discriminate B.
    + intros _ -> -> ->. exists c, p. auto.
  - destruct p as [|a [|b p]]; [easy| |]; cbn [app] in E; injection E.
    + intros _ <- _. destruct B as [B|B]; discriminate B.
    + intros _ -> ->. exists c, p. auto.
Qed.
Lemma mark_app : forall p r, fold_mark p -> fold_mark (p ++ r).
Proof. intros p r (c & q & B & [->| ->]); exists c, (q ++ r); auto. Qed.
Lemma mark_em : forall s, fold_mark s \/ ~ fold_mark s.
Proof.
  intros s. destruct (fold_mark_dec s) as [F|(H4 & H3 & H2 & H1)]; [now left|right].
  intros (c & q & [->| ->] & [->| ->]); vm_compute in H1, H2, H3, H4; discriminate.
Qed.
(** Before an inserted CR, the parts are unfolded by themselves. *)
Lemma unfold_app_any : forall p r, unfold (p ++ CR :: r) = unfold p ++ unfold (CR :: r).
Proof.
  intros p r. induction p as [p IH] using (well_founded_induction (well_founded_ltof _ (@length N))). unfold ltof in IH.
  destruct p as [|a p]; [easy|]. destruct (mark_em (a :: p)) as [M|M].
  - destruct M as (c & q & B & [E|E]); rewrite E; cbn [app].
    + rewrite !(proj1 (unfold_mark c _ B)). apply IH. rewrite E. cbn [length]. lia.
    + rewrite !(proj2 (unfold_mark c _ B)). apply IH. rewrite E. cbn [length]. lia.
  - assert (M' : ~ fold_mark ((a :: p) ++ CR :: r)). { intros F. apply M. now apply mark_before_cr in F. }
    cbn [app] in *. rewrite !unfold_keep' by easy. cbn [app]. f_equal. apply IH. cbn [length]. lia.
Qed.
Lemma unfold_shorter : forall s, length (unfold s) <= length s /\ (length (unfold s) = length s -> mark_free s).
Proof.
  intros s. induction s as [s IH] using (well_founded_induction (well_founded_ltof _ (@length N))). unfold ltof in IH.
  destruct s as [|a s].
  - split; [easy|]. intros _ x y E. destruct x; [|discriminate E]. cbn in E. subst y. intros (c & r & _ & [Q|Q]); discriminate Q.
  - destruct (mark_em (a :: s)) as [(c & q & B & M)|M].
    + assert (L : length q < length (a :: s)) by (destruct M as [-> | ->]; cbn [length]; lia).
      assert (Q : unfold (a :: s) = unfold q). { destruct M as [-> | ->]; [exact (proj1 (unfold_mark c q B))|exact (proj2 (unfold_mark c q B))]. }
      rewrite Q. destruct (IH q L) as [H _]. split; lia.
    + rewrite unfold_keep' by easy. destruct (IH s) as [H1 H2]; [cbn [length]; lia|]. cbn [length]. split; [lia|].
      intros E x y Q. destruct x as [|b x].
      * cbn [app] in Q. now subst y.
      * cbn [app] in Q. injection Q as _ Q. apply (H2 ltac:(lia) x y Q).
Qed.
Lemma unfold_join_any : forall ps last, unfold (join_fold ps last) = concat (map unfold ps) ++ unfold last.
Proof.
  induction ps as [|p ps IH]; intros last; [easy|]. cbn [join_fold map concat app]. rewrite unfold_app_any, unfold_crlf_sp, IH. apply app_assoc.
Qed.
Lemma join_exact : forall ps last, unfold (join_fold ps last) = concat ps ++ last <-> Forall mark_free (ps ++ [last]).
Proof.
  intros ps last. rewrite unfold_join_any. split.
  - intros E. apply (f_equal (@length _)) in E. rewrite !app_length in E. pose proof (unfold_shorter last) as [L1 L2].
    assert (H : length (concat (map unfold ps)) <= length (concat ps)
      /\ (length (concat (map unfold ps)) = length (concat ps) -> Forall mark_free ps)).
    { clear. induction ps as [|p ps [H1 H2]]; [split; [easy|constructor]|]. cbn [map concat]. rewrite !app_length.
      pose proof (unfold_shorter p) as [L1 L2]. split; [lia|]. intros E. constructor; [apply L2; lia|apply H2; lia]. }
    destruct H as [H1 H2]. apply Forall_app. split; [apply H2; lia|]. constructor; [apply L2; lia|constructor].
  - intros F. apply Forall_app in F as [F1 F2]. inversion F2 as [|? ? F3 F4]; subst. rewrite (unfold_mark_free last) by easy. f_equal.
    clear - F1. induction F1 as [|p ps H F IH]; [easy|]. cbn [map concat]. now rewrite IH, unfold_mark_free.
Qed.
Lemma cuts_concat : forall l a n ps last, cuts l a n ps last -> l = a ++ concat ps ++ last.
Proof.
  intros l a n ps last C. induction C as [a n r E L|a n p r ps last E L P C IH]; [easy|]. cbn [concat]. rewrite IH. now rewrite <- !app_assoc.
Qed.

Lemma lf_unfold : forall s, ~ In LF (unfold s) <-> lf_blank s.
Proof.
  intros s. induction s as [s IH] using (well_founded_induction (well_founded_ltof _ (@length N))). unfold ltof in IH.
  destruct s as [|a s].
  - split; [|easy]. intros _ [|? ?] b E; discriminate E.
  - destruct (mark_em (a :: s)) as [(c & q & B & M)|M].
    + assert (L : length q < length (a :: s)) by (destruct M as [-> | ->]; cbn [length]; lia).
      assert (Q : unfold (a :: s) = unfold q). { destruct M as [-> | ->]; [exact (proj1 (unfold_mark c q B))|exact (proj2 (unfold_mark c q B))]. }
      rewrite Q, (IH q L). clear Q IH L. assert (C1 : c <> LF) by (destruct B as [-> | ->]; discriminate). split.
      * intros H x y E. destruct M as [M|M]; rewrite M in E.
        -- destruct x as [|x1 [|x2 [|x3 x]]]; cbn [app] in E; injection E; try discriminate.
           ++ intros <- _. eauto.
           ++ intros _ Q _ _. now subst c.
           ++ intros E' _ _ _. now apply (H x y).
        -- destruct x as [|x1 [|x2 x]]; cbn [app] in E; injection E.
           ++ intros <-. eauto.
           ++ intros _ Q _. now subst c.
           ++ intros E' _ _. now apply (H x y).
      * intros H x y E. destruct M as [M|M]; rewrite M in H; rewrite E in H.
        -- apply (H (CR :: LF :: c :: x) y). easy.
        -- apply (H (LF :: c :: x) y). easy.
    + rewrite unfold_keep' by easy. cbn [In]. assert (L : length s < length (a :: s)) by (cbn [length]; lia).
      specialize (IH s L). split.
      * intros H x y E. destruct x as [|b x]; cbn [app] in E; injection E.
        -- intros _ Q. exfalso. apply H. now left.
        -- intros E' _. apply (proj1 IH ltac:(tauto) x y E').
      * intros H [Q|Q].
        -- subst a. destruct (H [] s eq_refl) as (c & r & -> & B). apply M. exists c, r. auto.
        -- revert Q. apply IH. intros x y E. apply (H (a :: x) y). now rewrite E.
Qed.
Lemma unfold_end : forall s, unfold (s ++ [CR; LF]) = unfold s ++ [CR; LF].
Proof. intros s. now rewrite (unfold_app_any s [LF]). Qed.
Lemma join_fold_app : forall ps last r, join_fold ps last ++ r = join_fold ps (last ++ r).
Proof. induction ps as [|p ps IH]; intros last r; [easy|]. cbn [join_fold]. now rewrite <- IH, <- !app_assoc. Qed.
Lemma one_line_exact : forall ps last, one_line (unfold (join_fold ps last ++ [CR; LF])) <-> Forall lf_blank (ps ++ [last]).
Proof.
  intros ps last. rewrite unfold_end. unfold one_line.
  assert (H : ~ In LF (unfold (join_fold ps last)) <-> Forall lf_blank (ps ++ [last])).
  { rewrite unfold_join_any. rewrite Forall_app, in_app_iff. split.
    - intros H. split; [|constructor; [apply lf_unfold; tauto|constructor]]. apply Forall_forall. intros p I. apply lf_unfold. intros J. apply H. left.
      apply in_concat. exists (unfold p). split; [now apply in_map|easy].
    - intros [F1 F2] [H|H].
      + apply in_concat in H as (x & I & J). apply in_map_iff in I as (p & <- & I). rewrite Forall_forall in F1. apply F1 in I. now apply lf_unfold in I.
      + inversion F2 as [|? ? F3 F4]; subst. now apply lf_unfold in F3. }
  rewrite <- H. split; [|eauto]. intros (u & E & N). apply app_inv_tail in E. now rewrite E.
Qed.

(** ** Physical lines *)
Lemma cut_place_le : forall l p q, cut_place l p q -> q <= p.
Proof. intros l p q H. apply cut_place_spec in H. apply back_up_le in H. unfold np1 in H. destruct (pos_is_ws l p); lia. Qed.
Lemma cuts_sizes : forall l a n ps last, cuts l a n ps last -> forall k, n = octets a + k -> octets last <= 75
  /\ match ps with [] => True | p :: r => octets p <= k /\ Forall (fun q => octets q <= 74) r end.
Proof.
  intros l a n ps last C. induction C as [a n r E L|a n p r ps last E L P C IH]; intros k K; [easy|].
  specialize (IH 74 eq_refl) as [IH1 IH2]. apply cut_place_le in P. rewrite !octets_blen, blen_app in *. split; [easy|]. split; [lia|].
  destruct ps as [|q ps]; [constructor|]. now constructor.
Qed.
Lemma physical_exact : forall l ps last, cuts l [] 75 ps last -> join_fold ps last = join_lines (physical ps last)
  /\ (~ In LF l -> Forall (fun p => ~ In LF p) (physical ps last))
  /\ (Forall (fun p => octets p <= 75) (physical ps last) <-> ps = [] \/ octets last < 75).
Proof.
  intros l ps last C. destruct (cuts_sizes _ _ _ _ _ C 75 eq_refl) as [S1 S2]. pose proof (cuts_concat _ _ _ _ _ C) as E. cbn [app] in E.
  assert (B : forall q, octets (SP :: q) = 1 + octets q) by (intros q; rewrite !octets_blen; reflexivity).
  destruct ps as [|p ps]; cbn [physical].
  - split; [easy|]. cbn in E. subst l. split; [intros N; now constructor|]. split; [now left|]. intros _. now constructor.
  - split; [|split].
    + rewrite join_lines_cons by now destruct ps. rewrite map_app. cbn [map]. now rewrite join_fold_lines.
    + intros N. rewrite E in N. cbn [concat] in N. rewrite !in_app_iff in N. constructor; [tauto|]. apply Forall_map, Forall_app. split.
      * apply Forall_forall. intros q I [F|F]; [discriminate F|]. apply N. left. right. apply in_concat. eauto.
      * constructor; [|constructor]. intros [F|F]; [discriminate F|tauto].
    + destruct S2 as [S2 S3]. split.
      * intros F. right. inversion F as [|? ? _ F']; subst. apply Forall_map, Forall_app in F' as [_ F']. inversion F' as [|? ? F3 F4]; subst. rewrite B in F3. lia.
      * intros [H|H]; [discriminate H|]. constructor; [easy|]. apply Forall_map, Forall_app. split.
        -- eapply Forall_impl; [|exact S3]. intros q Q. cbn beta in *. rewrite B. lia.
        -- constructor; [|constructor]. rewrite B. lia.
Qed.
(** ASCII without white space: pieces of 75, 74, 74, ... *)
Lemma cut_plain : forall n s ps last, cut_ascii n s ps last -> Forall (fun c => is_ws c = false) s -> (n = 74 \/ n = 75) ->
  (ps = [] <-> length s <= 75) /\ (ps <> [] -> length s = n + 74 * (length ps - 1) + length last) /\ (ps <> [] -> 1 <= length last)
  /\ (n = 74 -> ps <> [] -> 2 <= length last) /\ length last <= 75.
Proof.
  intros n s ps last C. induction C as [n s L|n p r ps last L Lp W C IH|n p c r ps last L Lp W C IH]; intros A K.
  - now repeat split.
  - apply Forall_app in A as [A1 A2]. destruct (IH A2 (or_introl eq_refl)) as (H1 & H2 & H3 & H4 & H5). rewrite app_length in L.
    split; [rewrite app_length; split; [discriminate|lia]|]. rewrite app_length. destruct ps as [|q ps].
    + assert (length last = length r) by now inversion C. cbn [length]. repeat split; try lia.
    + specialize (H2 ltac:(discriminate)). specialize (H3 ltac:(discriminate)). specialize (H4 eq_refl ltac:(discriminate)). cbn [length] in *. repeat split; lia.
  - exfalso. apply Forall_app in A as [_ A]. inversion A as [|? ? _ A']; subst. destruct W as (d & x & -> & W). inversion A'; subst. congruence.
Qed.
Lemma plain_exact : forall l ps last, cuts l [] 75 ps last -> Forall (fun c => (c < 128)%N /\ is_ws c = false) l ->
  (Forall (fun p => octets p <= 75) (physical ps last) <-> length l < 150 \/ length l mod 74 <> 2).
Proof.
  intros l ps last C F. destruct (physical_exact l ps last C) as (_ & _ & ->).
  assert (A : Forall (fun c => non_ascii c = false) l).
  { eapply Forall_impl; [|exact F]. intros c [H _]. unfold non_ascii. apply N.leb_gt. exact H. }
  destruct (cut_ascii_ex (S (length l)) 75 l) as (qs & la & D); [lia|now right|].
  pose proof (ascii_cuts 75 l qs la D [] (or_intror eq_refl) A) as C'. cbn [app length] in C'.
  destruct (cuts_one _ _ _ _ _ C _ _ C') as [-> ->].
  assert (Ol : octets la = length la).
  { rewrite octets_blen. assert (A2 : Forall (fun c => non_ascii c = false) la).
    { rewrite (cuts_concat _ _ _ _ _ C') in A. cbn [app] in A. now apply Forall_app in A. }
    clear - A2. induction A2 as [|c x H A2 IH]; [easy|]. cbn [blen length]. rewrite IH. now rewrite utf8_len_ascii. }
  assert (W : Forall (fun c => is_ws c = false) l) by (eapply Forall_impl; [|exact F]; now intros c [_ H]).
  destruct (cut_plain _ _ _ _ D W (or_intror eq_refl)) as (H1 & H2 & H3 & H4 & H5). rewrite Ol. destruct qs as [|q qs].
  - split; [|now left]. intros _. left. assert (length l <= 75) by now apply H1. lia.
  - specialize (H2 ltac:(discriminate)). specialize (H3 ltac:(discriminate)). cbn [length] in H2.
    assert (Lq : length l = 1 + length la + 74 * (1 + length qs)) by lia.
    assert (M : length l mod 74 = (1 + length la) mod 74).
    { rewrite Lq. rewrite (Nat.mul_comm 74). apply Nat.mod_add. lia. }
    rewrite M. split.
    + intros [Q|Q]; [discriminate Q|]. destruct (Nat.eq_dec (length la) 74) as [E|E]; [rewrite E; right; now vm_compute|].
      destruct (Nat.eq_dec (length la) 73) as [E'|E']; [rewrite E'; right; now vm_compute|].
      destruct (Nat.eq_dec (length la) 1) as [E1|E1].
      * left. destruct qs as [|q' qs]; [cbn [length] in Lq; lia|]. exfalso.
        inversion D as [|n p r ps last L Lp Wn D'|n p c r ps last L Lp Wn D']; subst.
        -- assert (A' : Forall (fun c => is_ws c = false) r) by now apply Forall_app in W.
           destruct (cut_plain _ _ _ _ D' A' (or_introl eq_refl)) as (_ & _ & _ & G & _). specialize (G eq_refl ltac:(discriminate)). lia.
        -- assert (A' : Forall (fun c => is_ws c = false) (c :: r)) by now apply Forall_app in W.
           destruct (cut_plain _ _ _ _ D' A' (or_introl eq_refl)) as (_ & _ & _ & G & _). specialize (G eq_refl ltac:(discriminate)). lia.
      * right. rewrite Nat.mod_small; lia.
    + intros Q. right. destruct (Nat.eq_dec (length la) 75) as [E|E]; [|lia]. exfalso. rewrite E in Q, Lq. destruct Q as [Q|Q]; [lia|]. now apply Q.
Qed.

(** ** Calendars from roots *)
Lemma hm_insert_cons : forall A k (v : A) m, hm_insert k v m <> [].
Proof. intros A k v m. unfold hm_insert. destruct m as [|[k' v'] m]; cbn; [easy|]. destruct (str_eqb k k'); easy. Qed.
Lemma params_none : forall qs m, fold_left (fun m q => hm_insert (fst q) (snd q) m) (map conv_param qs) m = [] -> qs = [] /\ m = [].
Proof.
  induction qs as [|q qs IH]; intros m H; [easy|]. cbn [map fold_left] in H. apply IH in H as [_ H]. now apply hm_insert_cons in H.
Qed.
Lemma conv_bare : forall p k v, conv_prop p = mk_property k v [] -> p = mk_pprop k v [].
Proof.
  intros [n w qs] k v H. unfold conv_prop in H. cbn [Parser.pr_name Parser.pr_val Parser.pr_params] in H.
  assert (E1 := f_equal p_key H). assert (E2 := f_equal p_val H). assert (E3 := f_equal p_params H). cbn [p_key p_val p_params] in E1, E2, E3.
  apply params_none in E3 as [-> _]. now subst.
Qed.
Lemma roots_exact : forall cs, conv_roots cs = conv_cal (pcal_of_roots cs)
  <-> exists inside others, cs = mk_pcomp (lit "VCALENDAR") three_props inside :: others.
Proof.
  intros cs. split.
  - intros H. apply (f_equal c_props) in H. unfold conv_roots, cal_from_iter, conv_cal in H. cbn [c_props] in H.
    destruct cs as [|[n ps cs'] others]; [discriminate H|]. cbn [pcal_of_roots pc_name pc_props pc_comps] in H.
    destruct (str_eqb n (lit "VCALENDAR")) eqn:E; [|discriminate H]. apply str_eqb_eq in E. subst n. cbn [pcal_props] in H.
    exists cs', others. do 2 f_equal. unfold default_props in H.
    destruct ps as [|p1 [|p2 [|p3 [|p4 ps]]]]; cbn [map] in H; try discriminate H.
    assert (E1 := f_equal (hd (prop_new [] [])) H). assert (E2 := f_equal (fun x => hd (prop_new [] []) (tl x)) H).
    assert (E3 := f_equal (fun x => hd (prop_new [] []) (tl (tl x))) H). cbn [hd tl] in E1, E2, E3.
    symmetry in E1, E2, E3. apply conv_bare in E1, E2, E3. now subst.
  - intros (inside & others & ->). reflexivity.
Qed.

(** ** Messages *)
Lemma digits_cut : forall a b x y c, Forall (fun c => (48 <= c <= 57)%N) a -> Forall (fun c => (48 <= c <= 57)%N) b ->
  ~ (48 <= c <= 57)%N -> a ++ c :: x = b ++ c :: y -> a = b /\ x = y.
Proof.
  induction a as [|d a IH]; intros [|d' b] x y c A B C E; cbn [app] in E.
  - now injection E.
  - injection E as -> _. inversion B; subst. contradiction.
  - injection E as -> _. inversion A; subst. contradiction.
  - injection E as -> E. inversion A; inversion B; subst. destruct (IH b x y c) as [-> ->]; easy.
Qed.
Lemma digits_cut_lit : forall w a b x y, match w with c :: _ => ~ (48 <= c <= 57)%N | [] => False end ->
  Forall (fun c => (48 <= c <= 57)%N) a -> Forall (fun c => (48 <= c <= 57)%N) b -> a ++ w ++ x = b ++ w ++ y -> x = y.
Proof.
  intros [|c w] a b x y C A B E; [easy|]. cbn [app] in E. apply digits_cut in E as [_ E]; try easy. now apply app_inv_head in E.
Qed.
Lemma spaces_cut : forall n m x y, repeat SP n ++ lit "^" ++ x = repeat SP m ++ lit "^" ++ y -> n = m /\ x = y.
Proof.
  induction n as [|n IH]; intros [|m] x y E; cbn in E.
  - now injection E.
  - discriminate E.
  - discriminate E.
  - injection E as E. apply IH in E as [-> ->]. easy.
Qed.
Lemma position_before : forall w input sub row col l, position w input sub row col l ->
  exists here, before_in_line input sub here /\ col = 1 + w here.
Proof. intros w input sub row col l (above & here & full & E & A & N & R & C & _). exists here. split; [exists above; auto|easy]. Qed.
Lemma before_unique : forall input sub h h', before_in_line input sub h -> before_in_line input sub h' -> h = h'.
Proof.
  intros input sub h h' (a & E & A & N) (a' & E' & A' & N'). rewrite E in E'. rewrite !app_assoc in E'. apply app_inv_tail in E'.
  now destruct (split_unique a h a' h' A N A' N' E') as [_ ->].
Qed.
Lemma entries_exact : forall input e k t, entries octets input k e t ->
  (entries (@length N) input k e t
   <-> Forall (fun x => forall here, before_in_line input (fst x) here -> octets here = length here) e).
Proof.
  intros input e. induction e as [|[sub w] e IH]; intros k t H.
  - inversion H; subst. split; [constructor|]. intros _. constructor.
  - inversion H as [|? ? ? ? row col l nk nrow text P Nk Nr H']; subst. split.
    + intros G. inversion G as [|? ? ? ? row' col' l' nk' nrow' text' P' Nk' Nr' G' Q1 Q2 Q3]; subst. clear H G.
      destruct P as (above & here & full & E & A & N & -> & -> & LH & T). destruct P' as (above' & here' & full' & E' & A' & N' & -> & -> & LH' & T').
      assert (S : above = above' /\ here = here').
      { rewrite E in E'. rewrite !app_assoc in E'. apply app_inv_tail in E'. now apply (split_unique above here above' here' A N A' N'). }
      destruct S as [<- <-]. rewrite (line_head_unique _ _ _ LH' LH) in T'. rewrite (trimmed_unique _ _ _ T' T) in Q3.
      destruct Nk as (Dk & _), Nk' as (Dk' & _), Nr as (Dr & _), Nr' as (Dr' & _).
      apply (digits_cut_lit (lit ": at line ")) in Q3; [|cbn; lia|easy|easy].
      apply (digits_cut_lit (lit ", in ")) in Q3; [|cbn; lia|easy|easy].
      apply (app_inv_head (lit (shown_kind w))) in Q3. apply (app_inv_head (lit ":")) in Q3. apply (app_inv_head [LF]) in Q3.
      apply app_inv_head in Q3. apply (app_inv_head [LF]) in Q3. apply spaces_cut in Q3 as [Q3 Q4].
      injection Q4 as ->. assert (Q : octets here = length here) by lia. constructor.
      * cbn [fst]. intros h Hh. rewrite (before_unique _ _ _ here Hh); [easy|]. exists above. auto.
      * now apply (IH (S k) text H').
    + intros F. inversion F as [|? ? F1 F2]; subst. cbn [fst] in F1. apply (E_cons _ _ k sub w e row col l nk nrow text); try easy.
      * destruct P as (above & here & full & E & A & N & R & C & LT). exists above, here, full. repeat (split; [easy|]).
        split; [|easy]. rewrite <- F1; [easy|]. exists above. auto.
      * now apply (IH (S k) text H').
Qed.
Lemma reported_exact : forall A i (r : result A verror) r', reported octets i r r' ->
  (reported (@length N) i r r' <-> forall e m, r = Err e -> r' = Err m ->
     Forall (fun x => forall here, before_in_line i (fst x) here -> octets here = length here) e).
Proof.
  intros A i r r' (R1 & R2). split.
  - intros (_ & R3) e m E M. destruct (R2 m M) as (e1 & E1 & t1 & T1 & H1 & _). destruct (R3 m M) as (e2 & E2 & t2 & T2 & H2 & _).
    assert (e1 = e) as -> by congruence. assert (e2 = e) as -> by congruence. clear E1 E2. rewrite T1 in T2. apply app_inv_head in T2. subst t2.
    destruct i as [|c i].
    + apply Forall_forall. intros [sub w] _ here (above & B & _ & _). cbn [fst] in B. destruct above; [|discriminate B]. destruct here; [easy|discriminate B].
    + apply (proj1 (entries_exact (c :: i) e 0 t1 (H1 ltac:(discriminate)))). now apply H2.
  - intros H. split; [easy|]. intros m M. destruct (R2 m M) as (e & E & t & T & H1 & H2). exists e. split; [easy|]. exists t. split; [easy|]. split; [|easy].
    intros N. apply (entries_exact i e 0 t (H1 N)). now apply (H e m).
Qed.

(** ** Names in a calendar *)
Lemma lower_is : forall x c, (97 <= c <= 122)%N -> lower_ascii x = c -> x = c \/ x = (c - 32)%N.
Proof.
  intros x c R H. unfold lower_ascii, is_upper, in_range in H. destruct ((65 <=? x) && (x <=? 90))%N eqn:B; lia.
Qed.
Lemma end_cases : forall k, map lower_ascii k = lit "end" -> exists a b c, k = [a; b; c] /\ (a = 101 \/ a = 69)%N /\ (b = 110 \/ b = 78)%N /\ (c = 100 \/ c = 68)%N.
Proof.
  intros k H. change (lit "end") with [101; 110; 100]%N in H. destruct k as [|a [|b [|c [|d k]]]]; try discriminate H. cbn [map] in H. injection H as A B C.
  exists a, b, c. split; [easy|]. apply lower_is in A, B, C; lia.
Qed.
Lemma begin_cases : forall k, map lower_ascii k = lit "begin" -> exists a b c d f, k = [a; b; c; d; f]
  /\ (a = 98 \/ a = 66)%N /\ (b = 101 \/ b = 69)%N /\ (c = 103 \/ c = 71)%N /\ (d = 105 \/ d = 73)%N /\ (f = 110 \/ f = 78)%N.
Proof.
  intros k H. change (lit "begin") with [98; 101; 103; 105; 110]%N in H. destruct k as [|a [|b [|c [|d [|f [|g k]]]]]]; try discriminate H. cbn [map] in H.
  injection H as A B C D F. exists a, b, c, d, f. split; [easy|]. apply lower_is in A, B, C, D, F; lia.
Qed.
Section Names.
  Context {U : Unicode}.
  Let alone (k v : str) : calendar := mk_calendar [mk_property k v []] [].
  Lemma empty_ok : forall k, val_ok (mk_property k [] []).
  Proof.
    intros k. split.
    - intros _ ([|] & d & b & E & _); discriminate E.
    - intros _. split; [intros ([|] & b & E); discriminate E|]. intros a b E (c & r & _ & Q). destruct a; [|discriminate E]. cbn in E. subst b. destruct Q as [Q|Q]; discriminate Q.
  Qed.
  Lemma alone_total : forall e k, plain_name k -> exists s, cal_write e (alone k []) = Ret s.
  Proof.
    intros e k K. destruct (plain_total k K) as [s W]. unfold cal_write, alone. cbn [c_props c_comps props_write]. rewrite W. cbn [obind ccs_write]. eexists. reflexivity.
  Qed.
  Lemma alone_end : forall e k s, map lower_ascii k = lit "end" -> cal_write e (alone k []) = Ret s -> exists x, calendar_from_str s = Err x.
  Proof.
    intros e k s H W. apply end_cases in H as (a & b & c & -> & [->| ->] & [->| ->] & [->| ->]);
      vm_compute in W; injection W as <-; eexists; vm_compute; reflexivity.
  Qed.
  Lemma alone_begin : forall e k s, map lower_ascii k = lit "begin" -> cal_write e (alone k []) = Ret s -> calendar_from_str s = Ok (mk_calendar [] []).
  Proof.
    intros e k s H W. apply begin_cases in H as (a & b & c & d & f & -> & [->| ->] & [->| ->] & [->| ->] & [->| ->] & [->| ->]);
      vm_compute in W; injection W as <-; vm_compute; reflexivity.
  Qed.
  Lemma alone_exact : forall e k, clock_ok e -> plain_name k ->
    ((forall v s, val_ok (mk_property k v []) -> cal_write e (alone k v) = Ret s -> calendar_from_str s = Ok (alone k v))
     <-> ~ has_prefix (lit "END") k /\ ~ has_prefix (lit "BEGIN") k /\ map lower_ascii k <> lit "end" /\ map lower_ascii k <> lit "begin").
  Proof.
    intros e k C K. split.
    - intros H. destruct (alone_total e k K) as [s W]. specialize (H [] s (empty_ok k) W).
      assert (L1 : map lower_ascii k <> lit "end"). { intros L. destruct (alone_end e k s L W) as [x X]. congruence. }
      assert (L2 : map lower_ascii k <> lit "begin"). { intros L. rewrite (alone_begin e k s L W) in H. discriminate H. }
      apply (cal_exact e (alone k []) s C) in H; [|constructor| |easy].
      + destruct H as [[H _] _]. inversion H as [|? ? [[(_ & P1 & P2 & _) _] _] _]; subst. auto.
      + split; [|constructor]. constructor; [|constructor]. split; [easy|]. split; [easy|]. split; [constructor|]. intros T. now apply (empty_ok k).
    - intros (P1 & P2 & L1 & L2) v s V W. apply (cal_exact e (alone k v) s C); [constructor| |easy|].
      + split; [|constructor]. constructor; [|constructor]. split; [easy|]. split; [easy|]. split; [constructor|]. intros T. now apply V.
      + split; [|constructor]. split; [|constructor]. constructor; [|constructor]. split; [|easy]. split; [|split; [constructor|constructor]].
        apply ascii_name in K as [K _]. now repeat split.
  Qed.
End Names.
