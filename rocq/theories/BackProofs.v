(** Exactly which properties are read back from their own text. *)
From Coq Require Import ZifyBool ZifyNat ZifyN.
From Verif Require Import Str StrFacts Spec Fold UnfoldProofs FoldProofs Text TextProofs ValueTypes Property Chrono DateTime
  Component Alarm Calendar Nom Parser SpecBuild SpecDate SpecTree SpecDoc SpecConv SpecRound SpecText SpecItems SpecBack BuildProofs
  DateProofs ValueProofs TreeProofs ParserProofs AcceptProofs ErrorProofs DocProofs ConvProofs RoundProofs RoundChecks ItemProofs WrittenProofs InjectProofs.

(** ** Weights *)

Definition wt (f : N -> nat) (s : str) : nat := list_sum (map f s).
Lemma wt_cons : forall f c s, wt f (c :: s) = f c + wt f s.
Proof. reflexivity. Qed.
Lemma wt_app : forall f a b, wt f (a ++ b) = wt f a + wt f b.
Proof. intros. unfold wt. now rewrite map_app, list_sum_app. Qed.
Lemma wt_zero : forall f s, (forall c, In c s -> f c = 0) -> wt f s = 0.
Proof.
  intros f. induction s as [|c s IH]; intros H; [easy|]. rewrite wt_cons, (H c) by now left. apply IH. intros d I. apply H. now right.
Qed.
Lemma wt_replace : forall f p rep, p <> [] -> wt f rep <= wt f p -> forall s, wt f (replace p rep s) <= wt f s.
Proof.
  intros f p rep N R s. induction s as [s IH] using (well_founded_induction (well_founded_ltof _ (@length _))). unfold ltof in IH.
  destruct s as [|c s]; [easy|]. destruct (starts_with p (c :: s)) eqn:E.
  - apply starts_with_spec in E as [r Er]. rewrite Er in *. destruct p as [|d p]; [easy|].
    rewrite replace_match, !wt_app. specialize (IH r). rewrite app_length in IH. cbn [length] in IH. specialize (IH ltac:(lia)). lia.
  - rewrite replace_skip by easy. rewrite !wt_cons. specialize (IH s). cbn [length] in IH. lia.
Qed.
Lemma wt_unescape : forall f, f COMMA = 0 -> f SEMI = 0 -> f COLON = 0 -> f LF <= f BSL -> forall s, wt f (unescape_text s) <= wt f s.
Proof.
  intros f H1 H2 H3 H4 s. unfold unescape_text. destruct (_ || _); [|lia].
  repeat (etransitivity; [apply wt_replace; [easy|unfold wt; cbn [map list_sum fold_right]; lia]|]). lia.
Qed.

(** ** Unfolding *)

Lemma unfold_app_cr_all : forall a b, unfold (a ++ CR :: b) = unfold a ++ unfold (CR :: b).
Proof.
  intros a b. induction a as [a IH] using (well_founded_induction (well_founded_ltof _ (@length _))). unfold ltof in IH.
  destruct a as [|c a]; [easy|].
  destruct (fold_mark_dec (c :: a)) as [(d & q & B & [E|E])|F].
  - injection E as -> ->. cbn [app].
    assert (R : forall r, unfold (CR :: LF :: d :: r) = unfold r) by (intros r; destruct B as [-> | ->]; [apply unfold_crlf_sp|apply unfold_crlf_tab]).
    rewrite !R. apply IH. cbn. lia.
  - injection E as -> ->. cbn [app].
    assert (R : forall r, unfold (LF :: d :: r) = unfold r) by (intros r; destruct B as [-> | ->]; [apply unfold_lf_sp|apply unfold_lf_tab]).
    rewrite !R. apply IH. cbn. lia.
  - assert (N : ~ fold_mark (c :: a)).
    { intros (d & q & B & [E|E]); rewrite E in F; destruct F as (F1 & F2 & F3 & F4); destruct B as [-> | ->]; easy. }
    rewrite (unfold_keep' c a N). cbn [app]. rewrite unfold_keep'; [f_equal; apply IH; cbn; lia|].
    intros (d & q & B & [E|E]).
    + destruct a as [|x [|y a]]; cbn in E; try discriminate E.
      * injection E as _ _ <- _. now destruct B.
      * injection E as -> -> -> _. apply N. exists d, a. auto.
    + destruct a as [|x a]; cbn in E.
      * injection E as _ <- _. now destruct B.
      * injection E as -> -> _. apply N. exists d, a. auto.
Qed.
Lemma unfold_weight : forall f s, 1 <= f LF -> unfold s = s \/ wt f (unfold s) < wt f s.
Proof.
  intros f s L. pose proof (unfold_unfolds s) as H. generalize dependent (unfold s). intros t H.
  induction H as [|c r t B H IH|c r t B H IH|c r t F H IH].
  - now left.
  - right. rewrite !wt_cons. destruct IH as [->|IH]; lia.
  - right. rewrite !wt_cons. destruct IH as [->|IH]; lia.
  - rewrite !wt_cons. destruct IH as [->|IH]; [now left|right; lia].
Qed.
Lemma unfold_join_weight : forall f, 1 <= f LF -> forall ps last r,
  unfold (join_fold ps last ++ CR :: r) = (concat ps ++ last) ++ unfold (CR :: r)
  \/ wt f (unfold (join_fold ps last ++ CR :: r)) < wt f (concat ps ++ last) + wt f (unfold (CR :: r)).
Proof.
  intros f L ps last r. induction ps as [|p ps IH]; cbn [join_fold concat].
  - rewrite unfold_app_cr_all. destruct (unfold_weight f last L) as [->|H]; [now left|]. right. rewrite wt_app. cbn [app]. lia.
  - rewrite <- !app_assoc. cbn [app]. rewrite unfold_app_cr_all, unfold_crlf_sp.
    destruct (unfold_weight f p L) as [E|E]; destruct IH as [G|G].
    + left. rewrite E, G. now rewrite <- !app_assoc.
    + right. rewrite !wt_app in *. rewrite E. lia.
    + right. rewrite G, !wt_app in *. lia.
    + right. rewrite !wt_app in *. lia.
Qed.
(** The text of a line, unfolded, is the line; or some of its line feeds have been lost. *)
Lemma unfold_written : forall f l s, 1 <= f LF -> write_folded l = Ret s ->
  unfold s = l ++ [CR; LF] \/ wt f (unfold s) < wt f (l ++ [CR; LF]).
Proof.
  intros f l s L W. unfold write_folded in W. destruct (fold_line l) as [x| |] eqn:F; cbn [obind] in W; try easy. injection W as <-.
  apply fold_line_shape in F as (ps & last & -> & E & _). subst l. change crlf with [CR; LF].
  destruct (unfold_join_weight f L ps last [LF]) as [H|H]; [now left|right]. rewrite wt_app. exact H.
Qed.
Lemma unfold_written_end : forall l s, write_folded l = Ret s -> exists u, unfold s = u ++ [CR; LF].
Proof.
  intros l s W. unfold write_folded in W. destruct (fold_line l) as [x| |] eqn:F; cbn [obind] in W; try easy. injection W as <-.
  exists (unfold x). change crlf with [CR; LF]. now rewrite unfold_app_cr_all.
Qed.

(** ** Parameters *)

Definition pval (q : pparam) : str := snd (conv_param q).

Lemma sum_incl : forall A (g : A -> nat) ps l, NoDup ps -> incl ps l -> list_sum (map g ps) <= list_sum (map g l).
Proof.
  intros A g. induction ps as [|x ps IH]; intros l N I; [cbn; lia|]. inversion N as [|? ? N1 N2]; subst.
  destruct (in_split x l) as (a & b & ->); [apply I; now left|]. rewrite map_app, list_sum_app. cbn [map list_sum fold_right].
  specialize (IH (a ++ b) N2). rewrite map_app, list_sum_app in IH. unfold list_sum in *.
  assert (J : incl ps (a ++ b)); [|specialize (IH J); lia].
  intros y Y. assert (In y (a ++ x :: b)) as H by (apply I; now right). apply in_app_iff in H as [H|[->|H]]; [| |]; apply in_or_app; auto. easy.
Qed.
Lemma read_incl : forall ps (l : list (str * str)), NoDup (map fst ps) ->
  (forall k, map_get k (fold_left (fun m q => hm_insert (fst q) (snd q) m) l []) = map_get k ps) -> incl ps l.
Proof.
  intros ps l N H [k v] I. apply (nodup_get _ _ _ _ N) in I. rewrite <- H, map_get_hm_fold in I.
  destruct (map_get k (rev l)) as [x|] eqn:G; [|discriminate I]. injection I as ->. apply StrFacts.map_get_in in G. now apply in_rev.
Qed.
Lemma nodup_fst : forall A B (l : list (A * B)), NoDup (map fst l) -> NoDup l.
Proof. intros A B l. apply NoDup_map_inv. Qed.

Section Back.
  Context {U : Unicode}.

  Lemma params_measure : forall f (g : str -> nat), g [] = 0 ->
    (forall v t rest, value_read (Some v) t rest -> g v <= wt f t) ->
    forall qs t rest, params_read qs t rest -> list_sum (map (fun q => g (pval q)) qs) <= wt f t.
  Proof.
    intros f g Z H qs t rest P. induction P as [|q qs s t rest Q P IH]; [cbn; lia|]. cbn [map]. rewrite wt_app.
    change (list_sum (?a :: ?l)) with (a + list_sum l).
    assert (g (pval q) <= wt f s); [|unfold list_sum in *; cbn [fold_right]; lia].
    destruct Q as [k o w t0 rest0 B K V|k w rest0 B K]; unfold pval, conv_param; cbn [snd pp_val]; [|rewrite Z; lia].
    rewrite wt_cons, !wt_app, wt_cons. destruct o as [v|]; [|rewrite Z; lia]. apply H in V. lia.
  Qed.

  Definition wgt (b : bool) (c : N) : nat := if (c =? LF)%N then 1 else if (c =? BSL)%N then Nat.b2n b else 0.
  Definition dqs (c : N) : nat := if (c =? DQ)%N then 1 else 0.
  Definition dq_need (v : str) : nat := wt dqs (quote_if_contains_colon v).

  Lemma value_weight : forall f v t rest, value_read (Some v) t rest -> wt f v <= wt f t.
  Proof.
    intros f v t rest H. inversion H; subst; [|lia]. rewrite wt_cons, wt_app. lia.
  Qed.
  Lemma quote_no : forall v, ~ In SEMI v -> ~ In COLON v -> quote_if_contains_colon v = v.
  Proof.
    intros v S C. unfold quote_if_contains_colon. destruct (existsb _ v) eqn:E; [|easy]. apply existsb_exists in E as (d & I & D).
    assert (d = COLON \/ d = SEMI) as [->| ->] by lia; easy.
  Qed.
  Lemma quote_yes : forall v, In SEMI v \/ In COLON v -> quote_if_contains_colon v = DQ :: v ++ [DQ].
  Proof.
    intros v H. unfold quote_if_contains_colon. replace (existsb _ v) with true; [easy|]. symmetry. apply existsb_exists.
    destruct H as [H|H]; [exists SEMI|exists COLON]; (split; [easy|]); now rewrite ?N.eqb_refl, ?orb_true_r.
  Qed.
  Lemma sep_dec : forall v, (In SEMI v \/ In COLON v) \/ ~ In SEMI v /\ ~ In COLON v.
  Proof. intros v. destruct (in_dec N.eq_dec SEMI v); [tauto|]. destruct (in_dec N.eq_dec COLON v); tauto. Qed.
  Lemma value_quotes : forall v t rest, value_read (Some v) t rest -> dq_need v <= wt dqs t.
  Proof.
    intros v t rest H. unfold dq_need. inversion H as [? ? N D|? ? N S C|]; subst.
    - unfold quote_if_contains_colon. destruct (existsb _ v); [lia|]. rewrite wt_cons, wt_app. lia.
    - rewrite quote_no by easy. lia.
  Qed.
  (** Quotes around a value with quotes in it cannot be read. *)
  Lemma value_kind : forall v t rest, value_read (Some v) t rest -> ~ In DQ v \/ ~ In SEMI v /\ ~ In COLON v.
  Proof. intros v t rest H. inversion H; subst; tauto. Qed.
  Lemma params_kind : forall qs t rest, params_read qs t rest ->
    Forall (fun q => name_ok (fst q) /\ (~ In DQ (snd q) \/ ~ In SEMI (snd q) /\ ~ In COLON (snd q))) (map conv_param qs).
  Proof.
    intros qs t rest P. induction P as [|q qs s t rest Q P IH]; [constructor|]. cbn [map]. constructor; [|easy].
    destruct Q as [k [v|] w t0 rest0 B K V|k w rest0 B K]; unfold conv_param; cbn [fst snd pp_key pp_val]; (split; [easy|]); auto.
    now apply value_kind in V.
  Qed.

  Lemma looks_quoted_spec : forall s, quoted_start s <-> looks_quoted s.
  Proof.
    intros s. split.
    - intros (v & r & N & D & ->). exists (v ++ DQ :: r). split; [easy|]. split; [apply in_or_app; right; now left|].
      destruct v as [|c v]; [easy|]. intros [x E]. injection E as -> _. apply D. now left.
    - intros (w & -> & I & N). assert (H : exists v r, ~ In DQ v /\ w = v ++ DQ :: r).
      { clear N. induction w as [|c w IH]; [easy|]. destruct (N.eq_dec c DQ) as [->|Nc]; [now exists [], w|].
        destruct IH as (v & r & D & ->); [now destruct I|]. exists (c :: v), r. split; [|easy]. intros [E|J]; auto. }
      destruct H as (v & r & D & ->). exists v, r. split; [|easy]. intros ->. apply N. now exists r.
  Qed.
  Lemma looks_quoted_crlf : forall s, looks_quoted (s ++ [CR; LF]) <-> looks_quoted s.
  Proof.
    intros s. split.
    - intros (w & E & I & N). destruct s as [|c s]; [discriminate E|]. injection E as -> <-. exists s. split; [easy|]. split.
      + apply in_app_iff in I as [I|I]; [easy|]. vm_compute in I. intuition discriminate.
      + intros [r ->]. apply N. exists (r ++ [CR; LF]). easy.
    - intros (w & -> & I & N). exists (w ++ [CR; LF]). split; [easy|]. split; [apply in_or_app; now left|].
      intros [r E]. destruct w as [|c w]; [easy|]. injection E as -> _. apply N. now exists w.
  Qed.
  Lemma looks_quoted_dec : forall s, {looks_quoted s} + {~ looks_quoted s}.
  Proof.
    intros [|c w]; [right; now intros (w & E & _)|]. destruct (N.eq_dec c DQ) as [->|Nc]; [|right; intros (x & E & _); now injection E as ->].
    destruct (in_dec N.eq_dec DQ w) as [I|I]; [|right; intros (x & E & J & _); now injection E as <-].
    destruct w as [|c w]; [easy|]. destruct (N.eq_dec c DQ) as [->|Nc].
    - right. intros (x & E & _ & J). injection E as <-. apply J. now exists w.
    - left. exists (c :: w). split; [easy|]. split; [easy|]. intros [x E]. now injection E as ->.
  Qed.

  Lemma params_end : forall ps r, has_prefix [COLON] r -> param_end (params_text ps ++ r).
  Proof.
    intros [|q ps] r H; [right; now right|]. right. left. unfold params_text. cbn [map concat app]. eexists. reflexivity.
  Qed.
  (** The value as it is written is read as it is meant. *)
  Lemma value_meant : forall v rest, protected v rest -> param_end rest ->
    value_read (match v with [] => None | _ => Some v end) (quote_if_contains_colon v) rest.
  Proof.
    intros v rest P E. destruct v as [|c v]; [now constructor|]. destruct (sep_dec (c :: v)) as [S|[S C]].
    - rewrite quote_yes by easy. constructor; [easy|]. destruct P as [P|(P1 & P2 & _)]; [easy|tauto].
    - rewrite quote_no by easy. constructor; try easy. destruct P as [P|(_ & _ & P)].
      + intros (w & r & N & D & Q). injection Q as -> _. apply P. now left.
      + intros Q. now apply P, looks_quoted_spec.
  Qed.
  Definition meant (q : parameter) : pparam := mk_pparam (fst q) (match snd q with [] => None | v => Some v end).
  Lemma param_meant : forall k v rest, name_ok k -> protected v rest -> param_end rest ->
    param_read (meant (k, v)) (SEMI :: k ++ EQUALS :: quote_if_contains_colon v) rest.
  Proof.
    intros k v rest K P E. unfold meant. cbn [fst snd]. apply (pr_value k _ [] _ rest); [constructor|easy|].
    replace (match v with [] => None | _ => Some v end) with (match v with [] => None | c :: l => Some (c :: l) end) by now destruct v.
    pose proof (value_meant v rest P E) as H. now destruct v.
  Qed.
  Lemma param_det : forall q s rest q' s' rest', param_read q s rest -> param_read q' s' rest' -> s ++ rest = s' ++ rest' ->
    q = q' /\ s = s' /\ rest = rest'.
  Proof.
    intros q s rest q' s' rest' H H' E. apply (param_read_ok (E := verror)) in H, H'. rewrite E, H' in H. injection H as -> ->.
    split; [easy|]. split; [|easy]. now apply app_inv_tail in E.
  Qed.
  Lemma params_det : forall qs s rest qs' s' rest', params_read qs s rest -> params_read qs' s' rest' -> s ++ rest = s' ++ rest' ->
    qs = qs' /\ s = s' /\ rest = rest'.
  Proof.
    intros qs s rest qs' s' rest' H H' E. apply (params_read_ok (E := verror)) in H, H'. rewrite E, H' in H. injection H as -> ->.
    split; [easy|]. split; [|easy]. now apply app_inv_tail in E.
  Qed.

  Lemma name_weight : forall f k, name_ok k -> (forall c, f c <> 0 -> In c [LF; DQ; BSL]) -> wt f k = 0.
  Proof.
    intros f k K F. apply wt_zero. intros c I. destruct (Nat.eq_dec (f c) 0) as [E|E]; [easy|]. apply F in E. exfalso.
    apply name_ok_spec in K. rewrite forallb_forall in K. specialize (K c I). destruct E as [<-|[<-|[<-|[]]]]; discriminate K.
  Qed.
  Lemma params_text_cons : forall k v ps, params_text ((k, v) :: ps) = SEMI :: k ++ EQUALS :: quote_if_contains_colon v ++ params_text ps.
  Proof. intros k v ps. unfold params_text. cbn [map concat fst snd app]. now rewrite <- app_assoc. Qed.
  Lemma params_weight : forall f ps, f SEMI = 0 -> f EQUALS = 0 -> (forall c, f c <> 0 -> In c [LF; DQ; BSL]) ->
    Forall (fun q => name_ok (fst q)) ps -> wt f (params_text ps) = list_sum (map (fun q => wt f (quote_if_contains_colon (snd q))) ps).
  Proof.
    intros f ps H1 H2 H3 F. induction F as [|[k v] ps K _ IH]; [easy|]. cbn [fst snd] in *.
    rewrite params_text_cons. rewrite wt_cons, wt_app, wt_cons, wt_app, (name_weight f k) by easy. rewrite H1, H2, IH. cbn [map snd]. reflexivity.
  Qed.
  Lemma texts_back : forall ps ts, Forall2 param_written ps ts -> concat ts = params_text ps.
  Proof.
    intros ps ts H. unfold params_text. f_equal. induction H as [|q t ps ts Q _ IH]; [easy|]. cbn [map]. f_equal; [|easy].
    apply (param_written_unique q); [easy|apply param_written_text].
  Qed.
  Lemma protected_crlf : forall v r, protected v (r ++ [CR; LF]) <-> protected v r.
  Proof. intros v r. unfold protected. rewrite app_assoc, looks_quoted_crlf. reflexivity. Qed.
  Lemma params_back_crlf : forall ps ts r, params_back ps ts (r ++ [CR; LF]) <-> params_back ps ts r.
  Proof.
    induction ps as [|[k v] ps IH]; intros ts r; (split; intros H; inversion H; subst; constructor; try easy).
    - rewrite app_assoc in *. now apply protected_crlf.
    - now apply IH.
    - rewrite app_assoc. now apply protected_crlf.
    - now apply IH.
  Qed.

  (** Along the parameters as they are written, the parser reads what is meant; or it goes astray at a value that looks quoted,
      and then it has lost two double quotes. *)
  Lemma walk : forall R, has_prefix [COLON] R -> forall ps ts, Forall2 param_written ps ts ->
    Forall (fun q => name_ok (fst q) /\ (~ In DQ (snd q) \/ ~ In SEMI (snd q) /\ ~ In COLON (snd q))) ps ->
    forall qs t rest, params_read qs t rest -> t ++ rest = params_text ps ++ R ->
    params_back ps ts R /\ qs = map meant ps /\ t = params_text ps /\ rest = R
    \/ exists k v x qs1 qs2, In (k, v) ps /\ v <> x /\ qs = qs1 ++ mk_pparam k (Some x) :: qs2
       /\ list_sum (map (fun q => dq_need (pval q)) qs1) + list_sum (map (fun q => dq_need (pval q)) qs2) + 2 <= wt dqs t.
  Proof.
    intros R HR ps ts W. induction W as [|[k v] x ps ts Q W IH]; intros F qs t rest P E.
    - left. destruct P as [rest N|q qs s t rest Q P]; [cbn in E; subst; repeat split; constructor|]. exfalso.
      destruct HR as [r ->]. destruct Q; discriminate E.
    - inversion F as [|? ? [K V] F']; subst. cbn [fst snd] in K, V. rewrite params_text_cons in E.
      inversion P as [rest' N|q qs' s t' rest' Q' P']; subst; [exfalso; apply N; cbn in E; rewrite E; eexists; reflexivity|].
      cbn [app] in E. rewrite <- !app_assoc in E. cbn [app] in E. rewrite <- !app_assoc in E.
      assert (B : protected v (params_text ps ++ R) \/ looks_quoted (v ++ params_text ps ++ R)).
      { unfold protected. destruct V as [V|[V1 V2]]; [tauto|]. destruct (looks_quoted_dec (v ++ params_text ps ++ R)); tauto. }
      destruct B as [B|B].
      + pose proof (param_meant k v _ K B (params_end ps R HR)) as M.
        destruct (param_det _ _ _ _ _ _ Q' M) as (-> & -> & E'); [cbn [app]; rewrite <- !app_assoc; cbn [app]; exact E|].
        destruct (IH F' _ _ _ P' E') as [(A & -> & -> & ->)|(k0 & v0 & x0 & qs1 & qs2 & A1 & A2 & -> & A3)].
        * left. split; [|split; [easy|split; [|easy]]].
          -- constructor; [easy| |easy]. now rewrite (texts_back _ _ W).
          -- rewrite params_text_cons. cbn [app]. now rewrite <- app_assoc.
        * right. exists k0, v0, x0, (meant (k, v) :: qs1), qs2. split; [now right|]. split; [easy|]. split; [easy|].
          cbn [map]. rewrite wt_app, wt_cons, wt_app, wt_cons.
          assert (G : dq_need (pval (meant (k, v))) = wt dqs (quote_if_contains_colon v)) by now destruct v.
          rewrite G. change (list_sum (?a :: ?l)) with (a + list_sum l). lia.
      + assert (D : In DQ v).
        { destruct V as [V|[V1 V2]].
          - destruct B as (w & B & _). destruct v as [|c v].
            + exfalso. destruct HR as [r ->]. destruct ps as [|[k2 v2] ps]; [discriminate B|]. rewrite params_text_cons in B. discriminate B.
            + injection B as -> _. exfalso. apply V. now left.
          - destruct B as (w & B & _). destruct v as [|c v]; [|injection B as -> _; now left].
            exfalso. destruct HR as [r ->]. destruct ps as [|[k2 v2] ps]; [discriminate B|]. rewrite params_text_cons in B. discriminate B. }
        destruct V as [V|[V1 V2]]; [easy|]. rewrite quote_no in E by easy.
        apply looks_quoted_spec in B as (y & r & Y1 & Y2 & Y3). rewrite Y3 in E.
        assert (M : param_read (mk_pparam k (Some y)) (SEMI :: [] ++ k ++ EQUALS :: DQ :: y ++ [DQ]) r) by (constructor; [constructor|easy|now constructor]).
        destruct (param_det _ _ _ _ _ _ Q' M) as (-> & -> & E'); [cbn [app]; rewrite <- !app_assoc; cbn [app]; rewrite <- !app_assoc; exact E|].
        right. exists k, v, y, [], qs'. split; [now left|]. split; [now intros ->|]. split; [easy|]. cbn [map].
        pose proof (params_measure dqs dq_need eq_refl value_quotes _ _ _ P') as G.
        rewrite wt_app. cbn [app]. rewrite wt_cons, wt_app, wt_cons, wt_cons, wt_app. change (wt dqs [DQ]) with 1. change (dqs DQ) with 1.
        change (list_sum []) with 0. lia.
  Qed.

  Lemma meant_wp : forall ps, map meant ps = map wparam_read (map wp_of ps).
  Proof.
    intros ps. rewrite map_map. apply map_ext. intros [k v]. unfold meant, wparam_read, wp_of, wparam_value. cbn [fst snd wp_key wp_form].
    destruct v as [|c v]; [easy|]. now destruct (existsb _ (c :: v)).
  Qed.
  Lemma decode_meant : forall p v, decode_value (p_key p) (map meant (p_params p)) v = match prop_value_type p with Some Text => unescape_text v | _ => v end.
  Proof.
    intros p v. unfold decode_value. assert (T : determin_value_type (p_key p) (map meant (p_params p)) = prop_value_type p); [|now rewrite T].
    rewrite meant_wp. unfold determin_value_type, prop_value_type. rewrite <- (wps_conv (p_params p)) at 2. rewrite <- find_map_get.
    destruct (find _ _) as [q|]; [|easy]. destruct (pp_val q); [easy|]. reflexivity.
  Qed.
  Lemma conv_meant : forall p v, NoDup (map fst (p_params p)) ->
    conv_prop (mk_pprop (p_key p) v (map meant (p_params p))) = mk_property (p_key p) v (p_params p).
  Proof.
    intros p v N. unfold conv_prop. cbn [Parser.pr_name pr_val pr_params]. rewrite meant_wp, wps_conv, hm_fold_fresh by easy. reflexivity.
  Qed.
  Lemma head_sep : forall ps r, exists c y, params_text ps ++ COLON :: r = c :: y /\ In c [SEMI; COLON].
  Proof. intros [|[k v] ps] r; [exists COLON, r; cbn; auto|]. rewrite params_text_cons. eexists _, _. split; [reflexivity|cbn; auto]. Qed.
  (** No white space in front of a name. *)
  Lemma no_white : forall w i k c y, white w -> name_ok k -> In c [SEMI; COLON] -> w ++ i = k ++ c :: y -> w = [].
  Proof.
    intros [|d w] i k c y W K C E; [easy|]. exfalso. inversion W as [|? ? D _]; subst. cbn [app] in E. symmetry in E.
    destruct (name_head k _ d (w ++ i) K E) as [[-> E']|N].
    - injection E' as -> _. cbn in C, D. intuition (subst; discriminate).
    - apply N. cbn in D |- *. tauto.
  Qed.
  Lemma name_prefix : forall u r k c y, name_ok k -> In c [SEMI; COLON] -> ~ In SEMI u -> ~ In COLON u -> u ++ r = k ++ c :: y -> has_prefix u k.
  Proof.
    induction u as [|d u IH]; intros r k c y K C S1 S2 E; [now exists k|]. destruct k as [|e k].
    - injection E as -> _. exfalso. destruct C as [<-|[<-|[]]]; [apply S1|apply S2]; now left.
    - injection E as -> E. inversion K; subst. destruct (IH r k c y) as [x ->]; try easy; [intros I; apply S1; now right|intros I; apply S2; now right|].
      now exists x.
  Qed.
  Lemma reserved_line : forall k c y, name_ok k -> In c [SEMI; COLON] ->
    (reserved (k ++ c :: y) <-> has_prefix (lit "END") k \/ has_prefix (lit "BEGIN") k).
  Proof.
    intros k c y K C. split.
    - intros (w & r & W & [E|E]); (assert (w = []) as -> by (symmetry in E; now apply (no_white _ _ _ _ _ W K C E))); cbn [app] in E; symmetry in E.
      + left. apply (name_prefix _ r k c y); try easy; intros I; vm_compute in I; intuition discriminate.
      + right. apply (name_prefix _ r k c y); try easy; intros I; vm_compute in I; intuition discriminate.
    - intros [[r ->]|[r ->]]; exists [], (r ++ c :: y); (split; [constructor|]); rewrite <- app_assoc; auto.
  Qed.

  (** ** Reading the line itself *)

  Lemma parts_text : forall p ts w, line_parts p ts w -> concat ts = params_text (p_params p) /\ w = value_text p.
  Proof.
    intros p ts w (P & T1 & T2). split; [now apply texts_back|]. destruct (value_text_of p) as [V1 V2]. destruct (RoundProofs.is_text_dec p) as [T|T].
    - rewrite V1 by easy. apply (text_written_unique (p_val p)); [auto|apply text_written_escape].
    - rewrite V2 by easy. auto.
  Qed.
  Lemma back_read : forall p ts w, NoDup (map fst (p_params p)) -> line_parts p ts w -> comes_back p ts w ->
    property_from_str (p_key p ++ concat ts ++ COLON :: w ++ [CR; LF]) = Ok p.
  Proof.
    intros p ts w N L (K & K1 & K2 & B & V1 & V2). destruct (parts_text p ts w L) as [-> ->]. destruct L as (L & _).
    pose proof (params_back_crlf (p_params p) ts (COLON :: value_text p)) as [_ B']. specialize (B' B). cbn [app] in B'. clear B.
    assert (P : params_read (map meant (p_params p)) (params_text (p_params p)) (COLON :: value_text p ++ [CR; LF])).
    { revert B'. generalize (value_text p ++ [CR; LF]) as r. intros r. clear - L. induction L as [|[k v] t ps ts Q L IH]; intros B.
      - constructor. now intros [x E].
      - inversion B; subst. rewrite params_text_cons. cbn [map]. change (SEMI :: k ++ EQUALS :: quote_if_contains_colon v ++ params_text ps)
          with (SEMI :: k ++ (EQUALS :: quote_if_contains_colon v) ++ params_text ps). rewrite app_assoc.
        change (SEMI :: (k ++ EQUALS :: quote_if_contains_colon v) ++ params_text ps) with ((SEMI :: k ++ EQUALS :: quote_if_contains_colon v) ++ params_text ps).
        constructor; [|now apply IH]. apply param_meant; [easy| |apply params_end; now eexists]. now rewrite <- (texts_back ps ts). }
    assert (V : value_cut (value_text p) [CR; LF]).
    { left. split; [now exists []|]. destruct (value_text_of p) as [T1 T2]. destruct (RoundProofs.is_text_dec p) as [T|T].
      - rewrite T1 by easy. intros (a & b & E). apply (escape_no_lf (p_val p)). rewrite E. apply in_or_app. right. right. now left.
      - rewrite T2 by easy. auto. }
    unfold property_from_str. destruct (head_sep (p_params p) (value_text p ++ [CR; LF])) as (c & y & Ec & Ic).
    rewrite (read_property_line _ (mk_pprop (p_key p) (decode_value (p_key p) (map meant (p_params p)) (value_text p)) (map meant (p_params p)))).
    - cbn [rmap]. rewrite conv_meant, decode_meant by easy. f_equal. destruct (value_text_of p) as [T1 T2]. destruct p as [k v ps]. cbn [p_key p_val p_params] in *.
      f_equal. unfold is_text in *. destruct (prop_value_type _) as [[]|]; try (rewrite T2; easy). rewrite T1 by easy. apply unescape_escape. now apply V1.
    - rewrite Ec. rewrite reserved_line by easy. tauto.
    - exists [], (p_key p), (map meant (p_params p)), (params_text (p_params p)), (value_text p), [CR; LF]. split; [easy|]. split; [constructor|]. easy.
  Qed.

  Lemma same_no_params : forall ps : list parameter, (forall k, map_get k (@nil parameter) = map_get k ps) -> ps = [].
  Proof.
    intros [|[k v] ps] H; [easy|]. specialize (H k). cbn [map_get] in H. now rewrite str_eqb_refl in H.
  Qed.
  Lemma dqs_escape : forall v, wt dqs (escape_text v) <= wt dqs v.
  Proof.
    intros v. destruct (text_written_escape v) as (ss & F & ->). induction F as [|c s v ss H F IH]; [easy|].
    cbn [concat]. rewrite wt_app, wt_cons. assert (wt dqs s <= dqs c); [|lia]. destruct H; rewrite ?wt_cons; change (wt dqs []) with 0; change (dqs BSL) with 0; change (dqs 78%N) with 0; lia.
  Qed.
  Lemma decode_weight : forall f k qs v, f COMMA = 0 -> f SEMI = 0 -> f COLON = 0 -> f LF <= f BSL -> wt f (decode_value k qs v) <= wt f v.
  Proof. intros f k qs v H1 H2 H3 H4. unfold decode_value. destruct (determin_value_type k qs) as [[]|]; try lia. now apply wt_unescape. Qed.
  Lemma cut_crlf : forall u v rest, u ++ [CR; LF] = v ++ rest -> value_cut v rest -> has_prefix [CR; LF] rest /\ ~ has_crlf v.
  Proof.
    intros u v rest E [C|[(_ & _ & C)|[-> C]]]; [easy| |]; exfalso.
    - apply C. rewrite <- E. now exists u, [].
    - rewrite app_nil_r in E. apply C. rewrite <- E. apply in_or_app. right. right. now left.
  Qed.
  Lemma ends_crlf : forall u a b, u ++ [CR; LF] = a ++ COLON :: b -> exists x, b = x ++ [CR; LF].
  Proof.
    intros u a b E. destruct b as [|c b] using rev_ind.
    - change (a ++ [COLON]) with (a ++ [COLON]) in E. change [CR; LF] with ([CR] ++ [LF]) in E. rewrite app_assoc in E. apply app_inj_tail in E as [_ E]. discriminate E.
    - clear IHb. change [CR; LF] with ([CR] ++ [LF]) in E. rewrite app_comm_cons, !app_assoc in E. apply app_inj_tail in E as [E <-].
      destruct b as [|d b] using rev_ind.
      + apply app_inj_tail in E as [_ E]. discriminate E.
      + clear IHb. rewrite app_comm_cons, app_assoc in E. apply app_inj_tail in E as [_ <-]. exists b. now rewrite <- app_assoc.
  Qed.
  Lemma sum_map_conv : forall (g : parameter -> nat) qs, list_sum (map g (map conv_param qs)) = list_sum (map (fun q => g (conv_param q)) qs).
  Proof. intros g qs. now rewrite map_map. Qed.

  Lemma line_weight : forall f p, f SEMI = 0 -> f EQUALS = 0 -> f COLON = 0 -> f DQ = 0 -> (forall c, f c <> 0 -> In c [LF; DQ; BSL]) ->
    name_ok (p_key p) -> Forall (fun q => name_ok (fst q)) (p_params p) ->
    wt f (prop_line p) = list_sum (map (fun q => wt f (snd q)) (p_params p)) + wt f (value_text p).
  Proof.
    intros f p H1 H2 H3 H4 H5 K F. unfold prop_line. rewrite !wt_app, wt_cons, (name_weight f (p_key p)), params_weight by easy. rewrite H3.
    cbn [plus]. f_equal. f_equal. apply map_ext. intros q. unfold quote_if_contains_colon. destruct (existsb _ _); [|easy].
    rewrite wt_cons, wt_app, wt_cons, H4. unfold wt at 2. cbn. lia.
  Qed.

  (** What is read as the same property comes from its line, unharmed. *)
  Lemma read_whole : forall p s q, NoDup (map fst (p_params p)) -> prop_write p = Ret s -> line_read (unfold s) q -> same_property (conv_prop q) p ->
    unfold s = prop_line p ++ [CR; LF].
  Proof.
    intros p s q N W L (S1 & S2 & S3). destruct L as (w0 & k & qs & t & v & rest & E & W0 & K & P & V & ->).
    unfold conv_prop in *. cbn [p_key p_val p_params Parser.pr_name pr_val pr_params] in *. subst k.
    apply (read_incl _ _ N) in S3. pose proof (params_kind _ _ _ P) as PK.
    assert (FK : Forall (fun q => name_ok (fst q)) (p_params p)).
    { apply Forall_forall. intros q I. apply S3 in I. rewrite Forall_forall in PK. now apply PK in I. }
    destruct (unfold_written_end _ _ W) as [u Eu].
    assert (R : has_prefix [CR; LF] rest).
    { rewrite Eu in E. rewrite !app_assoc in E. destruct (ends_crlf u _ _ E) as [x X]. symmetry in X. now apply (cut_crlf _ _ _ X V). }
    destruct R as [r ->].
    assert (F1 : forall b c, wgt b c <> 0 -> In c [LF; DQ; BSL]).
    { intros b c. unfold wgt. destruct (c =? LF)%N eqn:E1; [apply N.eqb_eq in E1 as ->; cbn; auto|]. destruct (c =? BSL)%N eqn:E2; [apply N.eqb_eq in E2 as ->; cbn; auto|]. easy. }
    assert (G : exists b, wt (wgt b) (value_text p) <= wt (wgt b) v).
    { destruct (value_text_of p) as [T1 T2]. destruct (RoundProofs.is_text_dec p) as [T|T].
      - exists false. rewrite T1 by easy. rewrite wt_zero; [lia|]. intros c I. unfold wgt. destruct (c =? LF)%N eqn:E1; [|now destruct (c =? BSL)%N].
        apply N.eqb_eq in E1 as ->. now apply escape_no_lf in I.
      - exists true. rewrite T2 by easy. rewrite <- S2. apply decode_weight; reflexivity || (cbn; lia). }
    destruct G as [b G]. destruct (unfold_written (wgt b) _ _ (le_n 1) W) as [H|H]; [exact H|exfalso].
    rewrite wt_app, (line_weight (wgt b) p) in H by (easy || apply F1). rewrite E in H. rewrite !wt_app, wt_cons, !wt_app in H.
    change (wt (wgt b) [CR; LF]) with 1 in H.
    pose proof (params_measure (wgt b) (wt (wgt b)) eq_refl (value_weight (wgt b)) _ _ _ P) as M.
    pose proof (sum_incl _ (fun q : parameter => wt (wgt b) (snd q)) _ _ (nodup_fst _ _ _ N) S3) as M2. rewrite sum_map_conv in M2.
    pose proof (Nat.le_trans _ _ _ M2 M) as M3. revert M3 H. unfold parameter, str. clear M M2. intros. lia.
  Qed.

  Theorem back_exact : forall p s ts w, NoDup (map fst (p_params p)) -> line_parts p ts w -> prop_write p = Ret s ->
    ((exists q, property_from_str (unfold s) = Ok q /\ same_property q p)
     <-> unfold s = p_key p ++ concat ts ++ COLON :: w ++ [CR; LF] /\ comes_back p ts w)
    /\ (unfold s = p_key p ++ concat ts ++ COLON :: w ++ [CR; LF] -> comes_back p ts w -> property_from_str (unfold s) = Ok p).
  Proof.
    intros p s ts w N L W.
    assert (H0 : unfold s = p_key p ++ concat ts ++ COLON :: w ++ [CR; LF] -> comes_back p ts w -> property_from_str (unfold s) = Ok p).
    { intros E C. rewrite E. now apply back_read. }
    split; [|exact H0]. split; [|intros [E C]; exists p; split; [now apply H0|now repeat split]].
    intros (q & Q & S). unfold property_from_str in Q. destruct (read_property (unfold s)) as [pq| |] eqn:RP; cbn [rmap] in Q; try easy. injection Q as <-.
    apply read_property_exact in RP as [NR RP].
    assert (LR : line_read (unfold s) pq).
    { destruct RP as [RP|(A & k & (r & E & K & _) & ->)]; [easy|exfalso]. destruct S as (S1 & S2 & S3). unfold conv_prop in *.
      cbn [p_key p_val p_params Parser.pr_name pr_val pr_params map fold_left] in *. apply same_no_params in S3. destruct p as [pk pv pps]. cbn [p_key p_val p_params] in *. subst.
      destruct (printed_line (mk_property pk [] []) s (name_no_special _ LF K ltac:(cbn; auto)) (Forall_nil _) (fun _ => in_nil (a := LF)) W) as [E' _].
      cbn [p_key p_val p_params] in E'. change (params_text []) with (@nil BinNums.N) in E'. cbn [app] in E'.
      assert (VT : value_text (mk_property pk [] []) = []) by (unfold value_text; now destruct (prop_value_type _) as [[]|]).
      rewrite VT in E'. apply (A (mk_pprop pk (decode_value pk [] []) [])). exists [], pk, [], [], [], [CR; LF]. split; [rewrite E'; easy|]. split; [constructor|].
      split; [easy|]. split; [constructor; now intros [x X]|]. split; [left; split; [now exists []|now intros ([|] & b & X)]|easy]. }
    clear RP. pose proof (read_whole p s pq N W LR S) as E. destruct (parts_text p ts w L) as [Lt Lw].
    assert (E2 : unfold s = p_key p ++ concat ts ++ COLON :: w ++ [CR; LF]) by (rewrite E; unfold prop_line; rewrite Lt, Lw; now rewrite <- !app_assoc).
    split; [exact E2|]. clear E H0. rewrite Lt, Lw in E2. clear Lt. subst w.
    destruct LR as (w0 & k & qs & t & v & rest & E & W0 & K & P & V & ->). destruct S as (S1 & S2 & S3). unfold conv_prop in *.
    cbn [p_key p_val p_params Parser.pr_name pr_val pr_params] in *. subst k.
    destruct (head_sep (p_params p) (value_text p ++ [CR; LF])) as (c & y & Ec & Ic).
    assert (w0 = []) as ->. { rewrite E in E2. rewrite Ec in E2. now apply (no_white _ _ _ _ _ W0 K Ic E2). }
    rewrite E2, Ec, reserved_line in NR by easy.
    cbn [app] in E. rewrite E in E2. apply app_inv_head in E2.
    apply (read_incl _ _ N) in S3. pose proof (params_kind _ _ _ P) as PK.
    assert (PP : Forall (fun q => name_ok (fst q) /\ (~ In DQ (snd q) \/ ~ In SEMI (snd q) /\ ~ In COLON (snd q))) (p_params p)).
    { apply Forall_forall. intros q I. apply S3 in I. rewrite Forall_forall in PK. now apply PK in I. }
    destruct (walk (COLON :: value_text p ++ [CR; LF]) ltac:(now eexists) _ _ (proj1 L) PP _ _ _ P E2) as [(B & -> & -> & ER)|(k & x & z & qs1 & qs2 & I1 & I2 & -> & I3)].
    - injection ER as ER. destruct (value_text_of p) as [T1 T2]. symmetry in ER. destruct (cut_crlf _ _ _ ER V) as [[r ->] C].
      rewrite decode_meant in S2.
      assert (X : (is_text p -> ~ confused (p_val p)) /\ (~ is_text p -> ~ has_crlf (p_val p))).
      { unfold is_text in *. split; intros T.
        - rewrite T in S2. rewrite T1 in ER by easy. assert (NC : ~ has_crlf (escape_text (p_val p))).
          { intros (a & b & Ea). apply (escape_no_lf (p_val p)). rewrite Ea. apply in_or_app. right. right. now left. }
          destruct (crlf_split v (escape_text (p_val p)) r [] C NC) as [-> _]; [now rewrite <- ER|]. now apply unescape_escape.
        - replace v with (p_val p) in C; [easy|]. rewrite <- S2. now destruct (prop_value_type p) as [[]|]. }
      split; [easy|]. split; [tauto|]. split; [tauto|]. split; [|exact X].
      now apply params_back_crlf.
    - exfalso. assert (I : incl (p_params p) (map conv_param (qs1 ++ qs2))).
      { intros [k' x'] J. pose proof (S3 _ J) as J'. rewrite map_app in J' |- *. cbn [map] in J'. apply in_app_iff in J' as [J'|[J'|J']].
        - apply in_or_app. now left.
        - exfalso. unfold conv_param in J'. cbn [pp_key pp_val] in J'. injection J' as <- <-. apply I2.
          apply (nodup_get _ _ _ _ N) in I1, J. congruence.
        - apply in_or_app. now right. }
      pose proof (sum_incl _ (fun q : parameter => dq_need (snd q)) _ _ (nodup_fst _ _ _ N) I) as M. rewrite sum_map_conv, map_app, list_sum_app in M.
      assert (FD : forall c, dqs c <> 0 -> In c [LF; DQ; BSL]).
      { intros d. unfold dqs. destruct (d =? DQ)%N eqn:E1; [apply N.eqb_eq in E1 as ->; cbn; auto|easy]. }
      assert (FK : Forall (fun q : parameter => name_ok (fst q)) (p_params p)) by (eapply Forall_impl; [|exact PP]; cbn beta; tauto).
      pose proof (params_weight dqs (p_params p) eq_refl eq_refl FD FK) as M2.
      apply (f_equal (wt dqs)) in E2. rewrite !wt_app, !wt_cons, !wt_app, M2 in E2. change (wt dqs [CR; LF]) with 0 in E2.
      assert (M3 : wt dqs (value_text p) <= wt dqs v).
      { transitivity (wt dqs (p_val p)); [|rewrite <- S2; apply decode_weight; easy].
        destruct (value_text_of p) as [T1 T2]. destruct (RoundProofs.is_text_dec p) as [T|T]; [rewrite T1 by easy; apply dqs_escape|rewrite T2 by easy; lia]. }
      unfold pval, dq_need in I3, M. unfold parameter, str in *. lia.
  Qed.
End Back.
