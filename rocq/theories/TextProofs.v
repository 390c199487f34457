(** Escaping and unescaping of TEXT. *)
From Verif Require Import Str StrFacts Text.
From Coq Require Import ZifyBool ZifyNat ZifyN.

(** ** Escaping *)

Definition esc_piece (c : char) : piece :=
  if (c =? LF)%N then Escaped 78%N
  else if (c =? BSL)%N || (c =? COMMA)%N || (c =? SEMI)%N then Escaped c else Plain c.

Lemma flat_map_flat_map : forall (A B C : Type) (f : A -> list B) (g : B -> list C) l,
  flat_map g (flat_map f l) = flat_map (fun x => flat_map g (f x)) l.
Proof.
  intros A B C f g l. induction l as [|x l IH]; [easy|]. cbn. now rewrite flat_map_app, IH.
Qed.

Lemma escape_wire : forall t, escape_text t = wire (map esc_piece t).
Proof.
  intros t. unfold escape_text, replace_char, wire. rewrite !flat_map_flat_map, flat_map_concat_map,
    flat_map_concat_map, map_map. f_equal. apply map_ext. intros c. unfold esc_piece.
  unfold LF, BSL, COMMA, SEMI.
  destruct (c =? 92)%N eqn:E1; [apply N.eqb_eq in E1; subst c; reflexivity|].
  cbn [flat_map app].
  destruct (c =? 44)%N eqn:E2; [apply N.eqb_eq in E2; subst c; reflexivity|].
  cbn [flat_map app].
  destruct (c =? 59)%N eqn:E3; [apply N.eqb_eq in E3; subst c; reflexivity|].
  cbn [flat_map app].
  destruct (c =? 10)%N eqn:E4; [apply N.eqb_eq in E4; subst c; reflexivity|].
  reflexivity.
Qed.

Lemma esc_piece_rfc : forall c, rfc_piece (esc_piece c).
Proof.
  intros c. unfold esc_piece. destruct (c =? LF)%N eqn:E1; [cbn; auto 6|].
  destruct ((c =? BSL) || _ || _)%N eqn:E2.
  - cbn. apply orb_true_iff in E2 as [E2|E2]; [apply orb_true_iff in E2 as [E2|E2]|];
      apply N.eqb_eq in E2; auto.
  - cbn. intros ->. now rewrite N.eqb_refl in E2.
Qed.
Lemma esc_piece_decoded : forall c, decoded_piece (esc_piece c) = c.
Proof.
  intros c. unfold esc_piece. destruct (c =? LF)%N eqn:E1; [apply N.eqb_eq in E1; now subst|].
  destruct ((c =? BSL) || _ || _)%N eqn:E2; [|easy].
  cbn. unfold BSL, COMMA, SEMI in E2. now replace ((c =? 78) || (c =? 110))%N with false by lia.
Qed.
Lemma esc_piece_plain : forall c d, esc_piece c = Plain d ->
  d <> LF /\ d <> BSL /\ d <> COMMA /\ d <> SEMI.
Proof.
  intros c d. unfold esc_piece. destruct (c =? LF)%N eqn:E1; [easy|].
  destruct ((c =? BSL) || _ || _)%N eqn:E2; [easy|]. intros H. injection H as <-.
  repeat split; intros ->; unfold LF, BSL, COMMA, SEMI in *; lia.
Qed.
Lemma decoded_esc : forall t, decoded (map esc_piece t) = t.
Proof.
  intros t. unfold decoded. rewrite map_map. rewrite <- (map_id t) at 2. apply map_ext.
  apply esc_piece_decoded.
Qed.

Lemma escape_no_lf : forall t, ~ In LF (escape_text t).
Proof.
  intros t. rewrite escape_wire. unfold wire. rewrite in_flat_map. intros (p & H & F).
  apply in_map_iff in H as (c & <- & _). destruct (esc_piece c) as [d|d] eqn:E; cbn in F.
  - destruct F as [F|F]; [|easy]. apply esc_piece_plain in E. tauto.
  - destruct F as [F|[F|F]]; [easy| |easy]. pose proof (esc_piece_rfc c) as R. rewrite E in R.
    subst d. cbn in R. unfold BSL, SEMI, COMMA, LF in R. intuition discriminate.
Qed.

Lemma escape_pieces : forall t, exists ps, escape_text t = wire ps /\ decoded ps = t
  /\ Forall rfc_piece ps
  /\ Forall (fun p => match p with Plain c => ~ In c [BSL; SEMI; COMMA; LF] | Escaped _ => True end) ps
  /\ ~ In LF (escape_text t).
Proof.
  intros t. exists (map esc_piece t). split; [apply escape_wire|]. split; [apply decoded_esc|].
  split; [apply Forall_map, Forall_forall; intros; apply esc_piece_rfc|].
  split; [|apply escape_no_lf]. apply Forall_map, Forall_forall. intros c _.
  destruct (esc_piece c) eqn:E; [|easy]. apply esc_piece_plain in E. cbn. intuition congruence.
Qed.

(** ** [str::replace] *)

Lemma replace_go_skip : forall p rep k s t, length s = k -> replace_go p rep (s ++ t) k = replace p rep t.
Proof.
  intros p rep. induction k as [|k IH]; intros s t H.
  - destruct s; [easy|discriminate].
  - destruct s as [|c s]; [discriminate|]. cbn. apply IH. now injection H.
Qed.
Lemma replace_match : forall c p rep s, replace (c :: p) rep ((c :: p) ++ s) = rep ++ replace (c :: p) rep s.
Proof.
  intros c p rep s. unfold replace at 1. cbn [app replace_go].
  change (c :: p ++ s) with ((c :: p) ++ s). rewrite starts_with_app. f_equal.
  apply replace_go_skip. cbn. lia.
Qed.
Lemma replace_skip : forall p rep c s, starts_with p (c :: s) = false ->
  replace p rep (c :: s) = c :: replace p rep s.
Proof. intros p rep c s H. unfold replace. cbn [replace_go]. now rewrite H. Qed.
Lemma replace_absent : forall p rep s, contains p s = false -> replace p rep s = s.
Proof.
  intros p rep. induction s as [|c s IH]; intros H; [easy|].
  cbn [contains] in H. apply orb_false_iff in H as [H1 H2]. rewrite replace_skip by easy.
  f_equal. auto.
Qed.

(** Two-character patterns starting with a backslash. *)
Lemma starts2 : forall x c s, starts_with [BSL; x] (c :: s)
  = ((c =? BSL)%N && match s with d :: _ => (d =? x)%N | [] => false end).
Proof. intros x c s. cbn. rewrite (N.eqb_sym BSL c). destruct s; [easy|]. now rewrite andb_true_r, (N.eqb_sym x). Qed.

(** One pass that replaces all of several two-character sequences. *)
Fixpoint multi (f : char -> option char) (s : str) : str :=
  match s with
  | [] => []
  | c :: r => if (c =? BSL)%N
              then match r with
                   | d :: r' => match f d with Some y => y :: multi f r' | None => c :: multi f r end
                   | [] => [c]
                   end
              else c :: multi f r
  end.

Lemma multi_head : forall f x, f x = None -> (forall d, f d <> Some x) -> x <> BSL ->
  forall c s, c <> x -> match multi f (c :: s) with d :: _ => (d =? x)%N | [] => false end = false.
Proof.
  intros f x _ H2 H3 c s H. cbn [multi]. destruct (c =? BSL)%N.
  - destruct s as [|d s]; [lia|]. destruct (f d) as [y|] eqn:E.
    + apply N.eqb_neq. intros ->. now apply (H2 d).
    + lia.
  - lia.
Qed.

Lemma replace_multi : forall f x y, f x = None -> x <> BSL ->
  (forall d, f d <> Some x) -> (forall d, f d <> Some BSL) ->
  forall s, replace [BSL; x] [y] (multi f s)
    = multi (fun d => if (d =? x)%N then Some y else f d) s.
Proof.
  intros f x y Hx Nx H1 H2 s. remember (length s) as n eqn:Hn. revert s Hn.
  induction n as [n IH] using lt_wf_ind. intros s ->.
  destruct s as [|c s]; [easy|]. cbn [multi]. destruct (c =? BSL)%N eqn:E.
  - apply N.eqb_eq in E. subst c. destruct s as [|d s].
    + reflexivity.
    + destruct (d =? x)%N eqn:Ed.
      * apply N.eqb_eq in Ed. subst d. rewrite Hx.
        cbn [multi]. replace (x =? BSL)%N with false by lia.
        change (BSL :: x :: multi f s) with ([BSL; x] ++ multi f s).
        rewrite replace_match. cbn [app]. f_equal. eapply IH; [|reflexivity]. cbn; lia.
      * destruct (f d) as [z|] eqn:Fd.
        -- rewrite replace_skip.
           ++ f_equal. eapply IH; [|reflexivity]. cbn; lia.
           ++ rewrite starts2. replace (z =? BSL)%N with false; [easy|].
              symmetry. apply N.eqb_neq. intros ->. now apply (H2 d).
        -- rewrite replace_skip.
           ++ f_equal. eapply IH; [|reflexivity]. cbn; lia.
           ++ rewrite starts2. rewrite multi_head by (auto; lia). apply andb_false_r.
  - rewrite replace_skip.
    + f_equal. eapply IH; [|reflexivity]. cbn; lia.
    + now rewrite starts2, E.
Qed.

Lemma multi_none : forall s, multi (fun _ => None) s = s.
Proof.
  induction s as [|c s IH]; [easy|]. cbn [multi]. rewrite IH. destruct (c =? BSL)%N; [|easy].
  now destruct s.
Qed.

Definition code (d : char) : option char :=
  if (d =? 110)%N then Some LF else if (d =? 78)%N then Some LF
  else if (d =? COLON)%N then Some COLON else if (d =? SEMI)%N then Some SEMI
  else if (d =? COMMA)%N then Some COMMA else None.

(** [unescape_text] is two passes: [\\] first, then everything else at once. *)
Lemma unescape_two : forall s, unescape_text s = multi code (replace [BSL; BSL] [BSL] s).
Proof.
  intros s.
  assert (C : replace [BSL; 110%N] [LF] (replace [BSL; 78%N] [LF] (replace [BSL; COLON] [COLON]
    (replace [BSL; SEMI] [SEMI] (replace [BSL; COMMA] [COMMA] (replace [BSL; BSL] [BSL] s)))))
    = multi code (replace [BSL; BSL] [BSL] s)).
  { set (r := replace [BSL; BSL] [BSL] s).
    rewrite <- (multi_none r) at 1.
    rewrite replace_multi; try easy.
    rewrite replace_multi; try (intros d; destruct (d =? COMMA)%N; easy); try easy.
    rewrite replace_multi; try (intros d; destruct (d =? SEMI)%N, (d =? COMMA)%N; easy); try easy.
    rewrite replace_multi;
      try (intros d; destruct (d =? COLON)%N, (d =? SEMI)%N, (d =? COMMA)%N; easy); try easy.
    rewrite replace_multi;
      try (intros d; destruct (d =? 78)%N, (d =? COLON)%N, (d =? SEMI)%N, (d =? COMMA)%N; easy); easy. }
  unfold unescape_text. destruct (_ || _) eqn:G; [exact C|].
  rewrite <- C. repeat (apply orb_false_iff in G as [G ?]).
  rewrite (replace_absent [BSL; BSL]) by easy. rewrite (replace_absent [BSL; COMMA]) by easy.
  rewrite (replace_absent [BSL; SEMI]) by easy. rewrite (replace_absent [BSL; COLON]) by easy.
  rewrite (replace_absent [BSL; 78%N]) by easy. now rewrite (replace_absent [BSL; 110%N]).
Qed.

(** ** Reading well-escaped text *)

Definition half_piece (p : piece) : str :=
  match p with Plain c => [c] | Escaped c => if (c =? BSL)%N then [BSL] else [BSL; c] end.

Lemma replace_wire : forall ps, Forall rfc_piece ps ->
  replace [BSL; BSL] [BSL] (wire ps) = flat_map half_piece ps.
Proof.
  induction ps as [|p ps IH]; intros H; [easy|]. inversion H as [|? ? H1 H2]; subst.
  cbn [wire flat_map]. fold (wire ps). rewrite <- (IH H2). destruct p as [c|c]; cbn [wire_piece half_piece].
  - cbn [app]. apply replace_skip. rewrite starts2. cbn in H1. now replace (c =? BSL)%N with false by lia.
  - destruct (c =? BSL)%N eqn:E.
    + apply N.eqb_eq in E. subst c. now rewrite replace_match.
    + cbn [app]. rewrite replace_skip.
      * f_equal. apply replace_skip. now rewrite starts2, E.
      * rewrite starts2. cbn. rewrite andb_true_l || idtac. easy.
Qed.

Definition confusing (d : char) : Prop := In d [COMMA; SEMI; COLON; 78%N; 110%N].
(** An escaped backslash directly before a character that, escaped, would mean something. *)
Definition clash (ps : list piece) : Prop :=
  exists a d b, ps = a ++ Escaped BSL :: Plain d :: b /\ confusing d.

Lemma code_confusing : forall d, confusing d <-> code d <> None.
Proof.
  intros d. unfold confusing, code. cbn [In]. split.
  - intros [<-|[<-|[<-|[<-|[<-|[]]]]]]; easy.
  - destruct (d =? 110)%N eqn:E1; [apply N.eqb_eq in E1; auto 6|].
    destruct (d =? 78)%N eqn:E2; [apply N.eqb_eq in E2; auto 6|].
    destruct (d =? COLON)%N eqn:E3; [apply N.eqb_eq in E3; auto 6|].
    destruct (d =? SEMI)%N eqn:E4; [apply N.eqb_eq in E4; auto 6|].
    destruct (d =? COMMA)%N eqn:E5; [apply N.eqb_eq in E5; auto 6|]. easy.
Qed.

Lemma clash_cons : forall p ps, clash ps -> clash (p :: ps).
Proof. intros p ps (a & d & b & -> & H). exists (p :: a), d, b. auto. Qed.

Lemma multi_length : forall ps, Forall rfc_piece ps ->
  length (multi code (flat_map half_piece ps)) <= length ps
  /\ (clash ps -> length (multi code (flat_map half_piece ps)) < length ps)
  /\ (~ clash ps -> multi code (flat_map half_piece ps) = decoded ps).
Proof.
  intros ps. remember (length ps) as n eqn:Hn. revert ps Hn.
  induction n as [n IH] using lt_wf_ind. intros ps -> H.
  destruct ps as [|p ps].
  { cbn. split; [lia|]. split; [|easy]. intros (a & d & b & E & _). destruct a; discriminate. }
  inversion H as [|? ? H1 H2]; subst.
  destruct (IH (length ps) ltac:(cbn; lia) ps eq_refl H2) as (L1 & L2 & L3).
  assert (P : forall c, c <> BSL -> p = Plain c ->
    length (multi code (flat_map half_piece (p :: ps))) <= length (p :: ps)
    /\ (clash (p :: ps) -> length (multi code (flat_map half_piece (p :: ps))) < length (p :: ps))
    /\ (~ clash (p :: ps) -> multi code (flat_map half_piece (p :: ps)) = decoded (p :: ps))).
  { intros c Hc ->. cbn [flat_map half_piece app multi]. replace (c =? BSL)%N with false by lia.
    cbn [length decoded map decoded_piece]. repeat split.
    - lia.
    - intros (a & d & b & E & F). destruct a as [|q a]; [discriminate|]. injection E as <- ->.
      assert (clash (a ++ Escaped BSL :: Plain d :: b)) by (exists a, d, b; auto).
      apply L2 in H0. lia.
    - intros F. f_equal. apply L3. intros G. apply F. now apply clash_cons. }
  destruct p as [c|c]; [eapply P; [exact H1|easy]|]. clear P.
  cbn [rfc_piece] in H1. cbn [flat_map half_piece].
  destruct (c =? BSL)%N eqn:E.
  - apply N.eqb_eq in E. subst c. cbn [app multi].
    change (BSL =? BSL)%N with true. cbv iota.
    destruct ps as [|q ps].
    + cbn. split; [lia|]. split; [|easy]. intros (a & d & b & G & _).
      destruct a as [|? [|? ?]]; discriminate.
    + inversion H2 as [|? ? H3 H4]; subst.
      destruct (IH (length ps) ltac:(cbn; lia) ps eq_refl H4) as (K1 & K2 & K3).
      assert (Cl : clash (Escaped BSL :: q :: ps) ->
        (exists d, q = Plain d /\ confusing d) \/ clash (q :: ps)).
      { intros (a & d & b & G & F). destruct a as [|? a].
        - injection G as -> ->. left. eauto.
        - injection G as <- ->. right. exists a, d, b. auto. }
      destruct q as [d|d].
      * cbn [flat_map half_piece app] in *. destruct (code d) as [y|] eqn:Cd.
        -- assert (Cf : confusing d) by (apply code_confusing; congruence).
           cbn [length]. repeat split; try lia. intros F. exfalso. apply F. exists [], d, ps. auto.
        -- cbn [length] in *. repeat split; try lia.
           ++ intros F. apply Cl in F as [(d' & Ed & F)|F].
              ** injection Ed as <-. apply code_confusing in F. congruence.
              ** apply L2 in F. lia.
           ++ intros F. cbn [decoded map decoded_piece]. 
              replace ((BSL =? 78) || (BSL =? 110))%N with false by easy. f_equal.
              apply L3. intros G. apply F. now apply clash_cons.
      * assert (Hh : exists t, flat_map half_piece (Escaped d :: ps) = BSL :: t).
        { cbn [flat_map half_piece]. destruct (d =? BSL)%N; cbn [app]; eauto. }
        destruct Hh as [t Ht]. rewrite Ht in *. change (code BSL) with (@None N).
        cbn [length] in *. repeat split; try lia.
        -- intros F. apply Cl in F as [(d' & Ed & F)|F]; [discriminate|]. apply L2 in F. lia.
        -- intros F. cbn [decoded map decoded_piece] in *.
           replace ((BSL =? 78) || (BSL =? 110))%N with false by easy. f_equal.
           apply L3. intros G. apply F. now apply clash_cons.
  - cbn [app multi]. change (BSL =? BSL)%N with true. cbv iota.
    assert (D : code c = Some (decoded_piece (Escaped c))).
    { cbn in H1. destruct H1 as [<-|[<-|[<-|[<-|[<-|[]]]]]]; easy. }
    rewrite D. cbn [length decoded map]. repeat split; try lia.
    + intros (a & d & b & G & F). destruct a as [|? a]; [injection G as -> ->; lia|].
      injection G as <- ->. assert (K : clash (a ++ Escaped BSL :: Plain d :: b)) by (exists a, d, b; auto).
      apply L2 in K. lia.
    + intros F. f_equal. apply L3. intros G. apply F. now apply clash_cons.
Qed.

Lemma unescape_wire : forall ps, Forall rfc_piece ps ->
  (unescape_text (wire ps) = decoded ps <-> ~ clash ps).
Proof.
  intros ps H. rewrite unescape_two, replace_wire by easy.
  destruct (multi_length ps H) as (_ & L & D). split; [|auto].
  intros E F. apply L in F. rewrite E in F. unfold decoded in F. rewrite map_length in F. lia.
Qed.

Lemma unescape_escape : forall t, unescape_text (escape_text t) = t <->
  ~ exists a d b, t = a ++ BSL :: d :: b /\ In d [COLON; 78%N; 110%N].
Proof.
  intros t. rewrite escape_wire. rewrite <- (decoded_esc t) at 2.
  rewrite unescape_wire by (apply Forall_map, Forall_forall; intros; apply esc_piece_rfc).
  split; intros H F; apply H.
  - destruct F as (a & d & b & -> & F). exists (map esc_piece a), d, (map esc_piece b).
    rewrite map_app. cbn [map]. change (esc_piece BSL) with (Escaped BSL).
    assert (esc_piece d = Plain d) as -> by (cbn in F; destruct F as [<-|[<-|[<-|[]]]]; easy).
    split; [easy|]. unfold confusing. cbn in *. tauto.
  - destruct F as (a & d & b & E & F).
    apply map_eq_app in E as (t1 & t2 & -> & <- & E).
    destruct t2 as [|c1 t2]; [discriminate|]. destruct t2 as [|c2 t2]; [discriminate|].
    cbn [map] in E. injection E as E1 E2 E3. exists t1, d, t2.
    pose proof (esc_piece_decoded c1) as D1. rewrite E1 in D1.
    pose proof (esc_piece_decoded c2) as D2. rewrite E2 in D2. cbn in D1, D2. subst c1 c2.
    split; [easy|]. apply esc_piece_plain in E2. unfold confusing in F. cbn in F |- *. intuition congruence.
Qed.

(** Text without backslash is read unchanged. *)
Lemma unescape_no_bsl : forall t, ~ In BSL t -> unescape_text t = t.
Proof.
  intros t H. pose proof (unescape_wire (map Plain t)) as W.
  assert (W1 : wire (map Plain t) = t) by (clear; induction t as [|c t IH]; [easy|]; cbn; unfold wire in IH; now rewrite IH).
  assert (W2 : decoded (map Plain t) = t) by (unfold decoded; rewrite map_map; apply map_id).
  rewrite W1, W2 in W. apply W.
  - apply Forall_map, Forall_forall. intros c Hc ->. easy.
  - intros (a & d & b & E & _).
    assert (F : In (Escaped BSL) (map Plain t)) by (rewrite E; apply in_or_app; right; now left).
    apply in_map_iff in F as (? & F & _). discriminate.
Qed.
