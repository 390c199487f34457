(** The round trip through text. *)
From Verif Require Import Str StrFacts Spec Fold UnfoldProofs FoldProofs Text TextProofs ValueTypes Property Chrono DateTime
  Component Alarm Calendar Nom Parser SpecBuild SpecDate SpecTree SpecDoc SpecConv SpecRound BuildProofs DateProofs ValueProofs
  TreeProofs ParserProofs DocProofs ConvProofs.
From Coq Require Import ZifyBool ZifyNat ZifyN.

Section Round.
  Context {U : Unicode}.

  (** ** Properties as lines *)

  Definition wp_of (q : parameter) : wparam :=
    mk_wparam (fst q)
      (match snd q with
       | [] => FEmpty
       | v => if existsb (fun c => (c =? COLON)%N || (c =? SEMI)%N) v then FQuoted v else FPlain v
       end).
  Definition line_of (p : property) : wline := LValue (p_key p) (map wp_of (p_params p)) (value_text p).

  Lemma wp_of_text : forall q, wparam_text (wp_of q) = SEMI :: fst q ++ EQUALS :: quote_if_contains_colon (snd q).
  Proof.
    intros [k v]. unfold wp_of, wparam_text. cbn [wp_key wp_form fst snd]. unfold quote_if_contains_colon.
    destruct v as [|c v]; [easy|]. now destruct (existsb _ (c :: v)).
  Qed.
  Lemma line_of_text : forall p, wline_text (line_of p) = prop_line p.
  Proof.
    intros p. cbn [line_of wline_text]. unfold prop_line, params_text. do 2 f_equal. rewrite map_map. f_equal.
    apply map_ext. apply wp_of_text.
  Qed.
  Lemma wp_of_ok : forall q, param_ok q -> wparam_ok (wp_of q).
  Proof.
    intros [k v] [K [_ V]]. cbn [fst snd] in *. unfold wparam_ok, wp_of. cbn [wp_key wp_form fst snd]. split; [easy|].
    destruct v as [|c v]; [easy|]. destruct (existsb _ (c :: v)) eqn:E.
    - split; [easy|]. destruct V as [V|(V1 & V2 & _)]; [easy|]. apply existsb_exists in E as (d & I & E). intros _.
      assert (d = COLON \/ d = SEMI) as [->| ->] by lia; easy.
    - assert (N : forall d, d = COLON \/ d = SEMI -> ~ In d (c :: v)).
      { intros d D I. assert (existsb (fun c => (c =? COLON)%N || (c =? SEMI)%N) (c :: v) = true); [|congruence].
        apply existsb_exists. exists d. split; [easy|]. destruct D as [->| ->]; now rewrite N.eqb_refl, ?orb_true_r. }
      split; [easy|]. split; [apply N; auto|]. split; [apply N; auto|]. destruct V as [V|(_ & _ & V)]; [|easy].
      intros [r H]. apply V. rewrite H. now left.
  Qed.
  Lemma wp_of_conv : forall q, conv_param (wparam_read (wp_of q)) = q.
  Proof.
    intros [k v]. unfold wparam_read, wp_of, wparam_value, conv_param. cbn [wp_key wp_form fst snd pp_key pp_val].
    destruct v as [|c v]; [easy|]. now destruct (existsb _ (c :: v)).
  Qed.
  Lemma wps_conv : forall ps, map conv_param (map wparam_read (map wp_of ps)) = ps.
  Proof. intros ps. rewrite !map_map. rewrite <- map_id. apply map_ext. apply wp_of_conv. Qed.

  (** ** Marks *)

  Lemma mark_free_sep : forall a c b, mark_free a -> c <> LF -> ~ Spec.blank c -> mark_free (c :: b) ->
    mark_free (a ++ c :: b).
  Proof.
    intros a c b A C B D. induction a as [|x a IH]; [easy|]. intros p q E M. destruct p as [|y p].
    - cbn in E. subst q. destruct M as (d & r & Bd & [M|M]).
      + injection M as -> M. destruct a as [|x2 a]; cbn in M; [now injection M as ->|]. injection M as -> M.
        destruct a as [|x3 a]; cbn in M; [now injection M as -> ->|]. injection M as -> M.
        apply (A [] _ eq_refl). exists d, a. auto.
      + injection M as -> M. destruct a as [|x2 a]; cbn in M; [now injection M as -> ->|]. injection M as -> M.
        apply (A [] _ eq_refl). exists d, a. auto.
    - injection E as -> E. refine (IH _ p q E M). now apply mark_free_cons in A.
  Qed.
  Lemma mark_free_cons_not : forall c s, c <> CR -> c <> LF -> mark_free s -> mark_free (c :: s).
  Proof.
    intros c s A B M [|x a] b E K.
    - cbn in E. subst b. destruct K as (d & r & _ & [K|K]); injection K as -> _; easy.
    - injection E as -> E. now apply (M a b).
  Qed.
  Lemma mark_free_nil : mark_free [].
  Proof. apply mark_free_no_lf. easy. Qed.

  Lemma name_no_lf : forall k, name_ok k -> ~ In LF k.
  Proof. intros k K. apply name_no_special; [easy|]. cbn. auto 20. Qed.
  Lemma name_mark_free : forall k, name_ok k -> mark_free k.
  Proof. intros k K. now apply mark_free_no_lf, name_no_lf. Qed.

  Lemma blank_not : forall c, c <> SP -> c <> TAB -> ~ Spec.blank c.
  Proof. intros c A B [H|H]; easy. Qed.

  Lemma quote_mark_free : forall v b, pvalue_ok v -> (exists c r, b = c :: r /\ (c = SEMI \/ c = COLON)) -> mark_free b ->
    mark_free (quote_if_contains_colon v ++ b).
  Proof.
    intros v b [V _] (c & r & -> & C) B. unfold quote_if_contains_colon. destruct (existsb _ v).
    - cbn [app]. rewrite <- app_assoc. cbn [app]. apply mark_free_cons_not; try easy.
      apply mark_free_sep; try easy; [now apply blank_not|]. now apply mark_free_cons_not.
    - apply mark_free_sep; try easy; destruct C as [->| ->]; try easy; now apply blank_not.
  Qed.
  Lemma params_mark_free : forall ps b, Forall param_ok ps -> mark_free b ->
    mark_free (params_text ps ++ COLON :: b).
  Proof.
    intros ps b F B. unfold params_text.
    induction F as [|[k v] ps [K V] _ IH]; cbn [map concat app fst snd]; [now apply mark_free_cons_not|].
    apply mark_free_cons_not; try easy. rewrite <- !app_assoc. cbn [app].
    apply mark_free_sep; try easy; [now apply name_mark_free|now apply blank_not|].
    apply mark_free_cons_not; try easy. apply quote_mark_free; [easy| |easy].
    destruct ps as [|[k2 v2] ps]; cbn; eauto.
  Qed.
  Lemma line_mark_free : forall p, head_ok p -> mark_free (value_text p) -> mark_free (prop_line p).
  Proof.
    intros p (K & P & _) V. unfold prop_line.
    assert (M : mark_free (params_text (p_params p) ++ COLON :: value_text p)) by now apply params_mark_free.
    destruct K as [K _]. destruct (p_params p) as [|[k v] ps].
    - cbn [params_text map concat app] in *. apply mark_free_sep; try easy; [now apply name_mark_free|now apply blank_not].
    - unfold params_text in *. cbn [map concat app] in *.
      apply mark_free_sep; try easy; [now apply name_mark_free|now apply blank_not].
  Qed.
  Lemma is_text_dec : forall p, is_text p \/ ~ is_text p.
  Proof. intros p. unfold is_text. destruct (prop_value_type p) as [[]|]; auto; right; discriminate. Qed.
  Lemma value_text_of : forall p, (is_text p -> value_text p = escape_text (p_val p)) /\ (~ is_text p -> value_text p = p_val p).
  Proof.
    intros p. unfold is_text, value_text. destruct (prop_value_type p) as [[]|]; split; intros H; try easy; now destruct H.
  Qed.
  Lemma value_mark_free : forall p, val_ok p -> mark_free (value_text p) /\ ~ has_crlf (value_text p).
  Proof.
    intros p [V1 V2]. destruct (value_text_of p) as [T1 T2]. destruct (is_text_dec p) as [T|T].
    - rewrite T1 by easy. pose proof (escape_no_lf (p_val p)) as N. split; [now apply mark_free_no_lf|].
      intros (a & b & E). apply N. rewrite E. apply in_or_app. right. right. now left.
    - rewrite T2 by easy. split; now apply V2.
  Qed.

  (** ** One property *)

  Lemma line_of_ok : forall p, head_ok p -> ~ has_crlf (value_text p) -> wline_ok CrLf (line_of p).
  Proof.
    intros p (K & P & _) V. cbn [line_of wline_ok]. split; [easy|]. split; [|easy].
    apply Forall_map. eapply Forall_impl; [|exact P]. intros q. apply wp_of_ok.
  Qed.
  Lemma nodup_filter : forall V k (l : list (str * V)), NoDup (map fst l) -> length (filter (fun q => str_eqb (fst q) k) l) <= 1.
  Proof.
    intros V k. induction l as [|[a v] l IH]; intros N; cbn [filter fst length]; [lia|].
    cbn [map fst] in N. inversion N as [|? ? N1 N2]; subst. destruct (str_eqb a k) eqn:E; [|now apply IH].
    apply str_eqb_eq in E as ->. cbn [length].
    assert (filter (fun q => str_eqb (fst q) k) l = []) as ->; [|easy].
    clear IH N N2. induction l as [|[b w] l IH]; [easy|]. cbn [filter fst]. cbn [map fst In] in N1.
    assert (str_eqb b k = false) as -> by (apply str_eqb_neq; intuition). apply IH. intuition.
  Qed.
  Lemma line_of_conv : forall p, NoDup (map fst (p_params p)) ->
    conv_prop (wline_read (line_of p))
    = mk_property (p_key p) (match prop_value_type p with Some Text => unescape_text (escape_text (p_val p)) | _ => p_val p end) (p_params p).
  Proof.
    intros p N. cbn [line_of wline_read]. unfold conv_prop. cbn [pr_name pr_val pr_params].
    rewrite wps_conv, hm_fold_fresh by easy. f_equal.
    assert (T : determin_value_type (p_key p) (map wparam_read (map wp_of (p_params p))) = prop_value_type p).
    { unfold determin_value_type, prop_value_type. rewrite <- (wps_conv (p_params p)) at 2. rewrite <- find_map_get.
      destruct (find _ _) as [q|]; [|easy]. destruct (pp_val q); [easy|]. reflexivity. }
    unfold decode_value, value_text. rewrite T. now destruct (prop_value_type p) as [[]|].
  Qed.
  Lemma line_of_back : forall p, prop_ok p -> conv_prop (wline_read (line_of p)) = p.
  Proof.
    intros p [(_ & _ & N) [V1 V2]]. rewrite line_of_conv by easy. destruct p as [k v ps]. cbn [p_key p_val p_params] in *.
    f_equal. unfold is_text in *. destruct (prop_value_type _) as [[]|]; try easy.
    apply unescape_escape. intros (a & d & b & H). apply V1; [easy|]. now exists a, d, b.
  Qed.

  (** ** Trees *)

  (** Lines the parser reads as the property they were written for, apart from the TEXT value. *)
  Definition line_good (p : property) : Prop := head_ok p /\ mark_free (value_text p) /\ ~ has_crlf (value_text p).
  Lemma prop_line_good : forall p, prop_ok p -> line_good p.
  Proof. intros p [H V]. split; [easy|]. now apply value_mark_free. Qed.
  Inductive tree_fit (Q : property -> Prop) : tree -> Prop :=
  | Tree_fit : forall k ps cs, name_ok k -> Forall Q ps -> Forall (tree_fit Q) cs -> tree_fit Q (Node k ps cs).
  Definition tree_good : tree -> Prop := tree_fit prop_ok.
  Definition tree_fine : tree -> Prop := tree_fit line_good.
  Lemma tree_fit_impl : forall (P Q : property -> Prop), (forall p, P p -> Q p) -> forall t, tree_fit P t -> tree_fit Q t.
  Proof.
    intros P Q H. induction t as [k ps cs IH] using tree_deep. intros G. inversion G as [? ? ? K F C]; subst.
    constructor; [easy|eapply Forall_impl; eauto|]. clear G. induction IH as [|c cs A _ IH]; [constructor|].
    inversion C; subst. constructor; auto.
  Qed.
  Lemma tree_good_fine : forall t, tree_good t -> tree_fine t.
  Proof. apply tree_fit_impl, prop_line_good. Qed.
  Fixpoint wtree_of (t : tree) : wtree :=
    match t with Node k ps cs => W k (map (fun p => inl (line_of p)) ps ++ map (fun c => inr (wtree_of c)) cs) end.

  Lemma wtree_of_ok : forall t, tree_fine t -> wtree_ok CrLf (wtree_of t).
  Proof.
    induction t as [k ps cs IH] using tree_deep. intros G. inversion G as [? ? ? K P C]; subst. cbn [wtree_of].
    constructor; [easy|]. apply Forall_app. split; apply Forall_map.
    - eapply Forall_impl; [|exact P]. intros p (H & _ & V). constructor. now apply line_of_ok.
    - clear G. induction IH as [|c cs H _ IH]; [constructor|]. inversion C; subst. constructor; [|now apply IH].
      constructor. now apply H.
  Qed.

  Definition solid (r : str) : Prop := match r with [] => True | c :: _ => ~ Spec.blank c end.
  Lemma unfold_crlf_keep : forall r, solid r -> unfold (CR :: LF :: r) = CR :: LF :: unfold r.
  Proof.
    intros r R. rewrite unfold_keep'.
    - rewrite unfold_keep'; [easy|]. intros (c & q & B & [H|H]); [discriminate|]. injection H as ->. easy.
    - intros (c & q & B & [H|H]); [|discriminate]. injection H as ->. easy.
  Qed.
  Lemma unfold_prop : forall p s r, line_good p -> prop_write p = Ret s -> solid r ->
    unfold (s ++ r) = wline_text (line_of p) ++ [CR; LF] ++ unfold r.
  Proof.
    intros p s r (H & V & _) W R. unfold prop_write, write_folded in W. destruct (fold_line _) as [f| |] eqn:F; cbn [obind] in W; try easy.
    injection W as <-. rewrite line_of_text, <- app_assoc. cbn [crlf app].
    rewrite (unfold_fold_app _ _ _ F), unfold_crlf_keep; [easy|easy|]. now apply line_mark_free.
  Qed.
  Lemma fold_head : forall l s, fold_line l = Ret s -> solid l -> solid (s ++ [CR; LF]).
  Proof.
    intros l s F S. apply fold_line_shape in F as (ps & last & -> & -> & _). destruct ps as [|[|c p] ps]; cbn in *; try easy.
    - destruct last as [|c l]; [now apply blank_not|easy].
    - now apply blank_not.
  Qed.
  Lemma name_solid : forall k r, name_ok k -> (forall c q, r = c :: q -> ~ Spec.blank c) -> solid (k ++ r).
  Proof.
    intros k r K R. destruct k as [|c k]; cbn.
    - destruct r as [|c r]; [easy|]. now apply (R c r).
    - assert (A : ~ In SP (c :: k) /\ ~ In TAB (c :: k)).
      { split; apply name_no_special; try easy; cbn; auto 20. }
      destruct A as [A B]. intros [->| ->]; [apply A|apply B]; now left.
  Qed.
  Lemma prop_solid : forall p s r, line_good p -> prop_write p = Ret s -> solid (s ++ r).
  Proof.
    intros p s r [(K & _) V] W. unfold prop_write, write_folded in W. destruct (fold_line _) as [f| |] eqn:F; cbn [obind] in W; try easy.
    injection W as <-. apply fold_head in F.
    - cbn [crlf] in *. destruct f; cbn in *; easy.
    - unfold prop_line. apply name_solid; [apply K|]. intros c q E. destruct (p_params p) as [|[k v] ps]; cbn in E; injection E as <- _; now apply blank_not.
  Qed.
  Lemma props_unfold : forall ps ts r, Forall line_good ps -> Forall2 (fun p t => prop_write p = Ret t) ps ts -> solid r ->
    unfold (concat ts ++ r) = concat (map (fun p => wline_text (line_of p) ++ [CR; LF]) ps) ++ unfold r
    /\ solid (concat ts ++ r).
  Proof.
    intros ps ts r G F R. induction F as [|p t ps ts W F IH]; [easy|]. inversion G; subst. cbn [concat map]. rewrite <- !app_assoc.
    destruct (IH ltac:(assumption)) as [E S]. split; [|now apply (prop_solid p)]. rewrite (unfold_prop p) by easy. now rewrite E.
  Qed.
  Lemma begin_unfold : forall w k r, ~ In LF (lit w) -> name_ok k -> solid r ->
    unfold (lit w ++ k ++ [CR; LF] ++ r) = lit w ++ k ++ [CR; LF] ++ unfold r.
  Proof.
    intros w k r Wl K R. rewrite app_assoc. cbn [app]. rewrite unfold_app_cr.
    - rewrite unfold_crlf_keep by easy. now rewrite <- app_assoc.
    - apply mark_free_no_lf. rewrite in_app_iff. intros [I|I]; [easy|]. now apply name_no_lf in I.
  Qed.
  Lemma text_solid : forall t s r, text_of t s -> solid (s ++ r).
  Proof. intros t s r T. inversion T; subst. cbn. now apply blank_not. Qed.
  Lemma render_wtree_of : forall k ps cs, render CrLf (wtree_of (Node k ps cs))
    = lit "BEGIN:" ++ k ++ [CR; LF] ++ concat (map (fun p => wline_text (line_of p) ++ [CR; LF]) ps)
      ++ concat (map (fun c => render CrLf (wtree_of c)) cs) ++ lit "END:" ++ k ++ [CR; LF].
  Proof.
    intros k ps cs. cbn [wtree_of render end_of]. rewrite map_app, concat_app, !map_map, <- app_assoc. easy.
  Qed.
  Lemma tree_unfold : forall t, tree_fine t -> forall s r, text_of t s -> solid r ->
    unfold (s ++ r) = render CrLf (wtree_of t) ++ unfold r.
  Proof.
    induction t as [k ps cs IH] using tree_deep. intros G s r T R. inversion G as [? ? ? K P C]; subst.
    inversion T as [? ? ts ? ss F1 F2]; subst. rewrite render_wtree_of.
    assert (E : solid (lit "END:" ++ k ++ [CR; LF] ++ r)) by (cbn; now apply blank_not).
    assert (X : unfold (concat ss ++ lit "END:" ++ k ++ [CR; LF] ++ r)
      = concat (map (fun c => render CrLf (wtree_of c)) cs) ++ unfold (lit "END:" ++ k ++ [CR; LF] ++ r)
      /\ solid (concat ss ++ lit "END:" ++ k ++ [CR; LF] ++ r)).
    { clear - IH C F2 E. induction F2 as [|c s cs ss F F2 IH2]; [easy|]. inversion IH; inversion C; subst.
      cbn [concat map]. rewrite <- !app_assoc. destruct IH2 as [Q1 Q2]; try assumption. split; [|now apply (text_solid c)].
      match goal with H : tree_fine c -> _ |- _ => rewrite (H ltac:(assumption)) by assumption end. now rewrite Q1. }
    destruct X as [X1 X2].
    assert (Y := props_unfold ps ts _ P F1 X2). destruct Y as [Y1 Y2].
    assert (Z : (lit "BEGIN:" ++ k ++ [CR; LF] ++ concat ts ++ concat ss ++ lit "END:" ++ k ++ [CR; LF]) ++ r
      = lit "BEGIN:" ++ k ++ [CR; LF] ++ concat ts ++ concat ss ++ lit "END:" ++ k ++ [CR; LF] ++ r).
    { now rewrite <- !app_assoc. }
    rewrite Z. rewrite begin_unfold; [|intros I; vm_compute in I; intuition discriminate|easy|easy].
    rewrite Y1, X1. rewrite begin_unfold; [|intros I; vm_compute in I; intuition discriminate|easy|easy].
    now rewrite <- !app_assoc.
  Qed.

  (** ** Reading the tree back *)

  Definition pline (p : property) : pprop := wline_read (line_of p).
  Definition ptree (t : tree) : pcomp := wtree_read (wtree_of t).
  Lemma ptree_eq : forall k ps cs, ptree (Node k ps cs) = mk_pcomp k (map pline ps) (map ptree cs).
  Proof.
    intros k ps cs. unfold ptree. cbn [wtree_of wtree_read]. rewrite !flat_map_app.
    f_equal.
    - transitivity (map pline ps ++ []); [|apply app_nil_r]. f_equal.
      + clear. induction ps as [|p ps IH]; [easy|]. cbn [map flat_map app]. now rewrite IH.
      + clear. induction cs as [|p cs IH]; [easy|]. exact IH.
    - transitivity ([] ++ map ptree cs); [|easy]. f_equal.
      + clear. induction ps as [|p ps IH]; [easy|]. exact IH.
      + clear. induction cs as [|p cs IH]; [easy|]. cbn [map flat_map app]. now rewrite IH.
  Qed.
  Lemma pline_name : forall p, pr_name (pline p) = p_key p.
  Proof. easy. Qed.
  Lemma pline_back : forall p, prop_ok p -> conv_prop (pline p) = p.
  Proof. exact line_of_back. Qed.

  Lemma conv_single_of : forall k ps cs key,
    map_get key (i_props (conv_inner (ptree (Node k ps cs))))
    = if is_multi_name key then None else option_map (fun p => conv_prop (pline p)) (last_with key ps).
  Proof.
    intros k ps cs key. rewrite ptree_eq, conv_inner_single. destruct (is_multi_name key); [easy|].
    unfold last_with. rewrite <- map_rev, find_map. induction (rev ps) as [|p l IH]; [easy|]. cbn [find]. rewrite pline_name.
    now destruct (str_eqb (p_key p) key).
  Qed.
  Lemma conv_multi_of : forall k ps cs key,
    map_get key (i_multi (conv_inner (ptree (Node k ps cs))))
    = if is_multi_name key then match filter (fun p => str_eqb (p_key p) key) ps with
                                | [] => None | l => Some (map (fun p => conv_prop (pline p)) l) end else None.
  Proof.
    intros k ps cs key. rewrite ptree_eq, conv_inner_multi. destruct (is_multi_name key); [|easy].
    assert (map conv_prop (filter (fun q => str_eqb (pr_name q) key) (map pline ps))
      = map (fun p => conv_prop (pline p)) (filter (fun p => str_eqb (p_key p) key) ps)) as ->.
    { induction ps as [|p l IH]; [easy|]. cbn [map filter]. rewrite pline_name.
      destruct (str_eqb (p_key p) key); [|easy]. cbn [map]. now rewrite IH. }
    now destruct (filter _ ps).
  Qed.
  Lemma conv_single : forall k ps cs key, Forall prop_ok ps ->
    map_get key (i_props (conv_inner (ptree (Node k ps cs)))) = if is_multi_name key then None else last_with key ps.
  Proof.
    intros k ps cs key F. rewrite ptree_eq, conv_inner_single. destruct (is_multi_name key); [easy|].
    unfold last_with. rewrite <- map_rev, find_map. apply Forall_rev in F.
    induction F as [|p l P _ IH]; [easy|]. cbn [find]. rewrite pline_name.
    destruct (str_eqb (p_key p) key); [|easy]. cbn [option_map]. now rewrite pline_back.
  Qed.
  Lemma conv_multi : forall k ps cs key, Forall prop_ok ps ->
    map_get key (i_multi (conv_inner (ptree (Node k ps cs))))
    = if is_multi_name key then match filter (fun p => str_eqb (p_key p) key) ps with [] => None | l => Some l end else None.
  Proof.
    intros k ps cs key F. rewrite ptree_eq, conv_inner_multi. destruct (is_multi_name key); [|easy].
    assert (map conv_prop (filter (fun q => str_eqb (pr_name q) key) (map pline ps)) = filter (fun p => str_eqb (p_key p) key) ps) as ->; [|easy].
    induction F as [|p l P _ IH]; [easy|]. cbn [map filter]. rewrite pline_name.
    destruct (str_eqb (p_key p) key); [|easy]. cbn [map]. now rewrite IH, pline_back.
  Qed.

  Lemma last_with_app : forall k a b, last_with k (a ++ b) = match last_with k b with Some p => Some p | None => last_with k a end.
  Proof. intros k a b. unfold last_with. now rewrite rev_app_distr, find_app. Qed.
  Lemma last_with_none : forall k l, Forall (fun p => p_key p <> k) l -> last_with k l = None.
  Proof.
    intros k l F. unfold last_with. apply Forall_rev in F. induction F as [|p r N _ IH]; [easy|]. cbn [find].
    apply str_eqb_neq in N. now rewrite N.
  Qed.
  Lemma last_with_map : forall k m, ksorted m -> Forall (fun '(k, p) => p_key p = k) m -> last_with k (map snd m) = map_get k m.
  Proof.
    intros k m S F. rewrite <- map_get_rev.
    - unfold last_with. rewrite map_get_find, <- map_rev, find_map. f_equal. apply find_ext. intros [k1 p] I. apply in_rev in I.
      rewrite Forall_forall in F. apply F in I. cbn [fst snd]. now rewrite I.
    - apply ksorted_NoDup in S. pose proof (nodup_filter _ k m S) as N.
      erewrite filter_ext; [exact N|]. intros q. apply str_eqb_sym.
  Qed.
  Lemma filter_none : forall k l, Forall (fun p => p_key p <> k) l -> filter (fun p => str_eqb (p_key p) k) l = [].
  Proof.
    intros k l F. induction F as [|p r N _ IH]; [easy|]. cbn [filter]. apply str_eqb_neq in N. now rewrite N.
  Qed.
  Lemma filter_all : forall k l, Forall (fun p => p_key p = k) l -> filter (fun p => str_eqb (p_key p) k) l = l.
  Proof.
    intros k l F. induction F as [|p r N _ IH]; [easy|]. cbn [filter]. apply str_eqb_eq in N. now rewrite N, IH.
  Qed.
  Lemma filter_multi : forall k m, NoDup (map fst m) ->
    Forall (fun '(k, ps) => ps <> [] /\ Forall (fun p => p_key p = k) ps) m ->
    match filter (fun p => str_eqb (p_key p) k) (concat (map snd m)) with [] => None | l => Some l end = map_get k m.
  Proof.
    intros k m N F. induction F as [|[k1 ps] m [P1 P2] F IH]; [easy|]. cbn [map snd concat]. rewrite filter_app.
    cbn [map fst] in N. inversion N as [|? ? N1 N2]; subst. cbn [map_get]. destruct (str_eqb k k1) eqn:E.
    - apply str_eqb_eq in E as ->. rewrite filter_all by easy. rewrite filter_none.
      + rewrite app_nil_r. now destruct ps.
      + apply Forall_forall. intros p I E. apply in_concat in I as (l & I & J). apply in_map_iff in I as ([k2 l2] & <- & I).
        rewrite Forall_forall in F. specialize (F _ I) as [_ F]. rewrite Forall_forall in F. apply F in J.
        destruct N1. apply (in_map fst) in I. cbn in I. congruence.
    - rewrite filter_none; [now apply IH|]. eapply Forall_impl; [|exact P2]. cbn beta. intros p H1 H2. apply str_eqb_neq in E. congruence.
  Qed.

  (** ** Generated properties *)

  Lemma prop_name_lit : forall s, prop_name_okb (lit s) = true -> prop_name_ok (lit s).
  Proof. intros s. apply prop_name_okb_spec. Qed.
  Lemma stamp_no_lf : forall d, ~ In LF (format_utc_date_time d).
  Proof.
    intros [d t]. unfold format_utc_date_time, format_naive_date_time, fmt_date, fmt_time, fmt_year. cbn [date_of time_of].
    assert (P : forall w n, ~ In LF (pad w n)).
    { intros w n I. pose proof (pad_digits w n) as D. rewrite forallb_forall in D. now apply D in I. }
    rewrite !in_app_iff. intros I.
    repeat match goal with
    | H : _ \/ _ |- _ => destruct H as [H|H]
    | H : In LF (pad _ _) |- _ => now apply P in H
    end; try (now vm_compute in I; intuition discriminate).
    destruct ((0 <=? year d) && (year d <=? 9999))%Z; [now apply P in I|]. destruct I as [I|I]; [|now apply P in I].
    now destruct (year d <? 0)%Z.
  Qed.
  Lemma stamp_prop_ok : forall d, prop_ok (utc_prop "DTSTAMP" d).
  Proof.
    intros d. split; [|split].
    - split; [now apply prop_name_lit|]. split; constructor.
    - intros T. now vm_compute in T.
    - intros _. pose proof (stamp_no_lf d) as N. change (p_val (utc_prop "DTSTAMP" d)) with (format_utc_date_time d). split; [|now apply mark_free_no_lf].
      intros (a & b & E). apply N. rewrite E. apply in_or_app. right. right. now left.
  Qed.
  Lemma uid_prop_ok : forall n, prop_ok (text_prop "UID" (fmt_uuid n)).
  Proof.
    intros n. split; [|split].
    - split; [now apply prop_name_lit|]. split; constructor.
    - intros _ (a & d & b & E & _). cbn [text_prop p_val] in E. destruct (uuid_spec n) as [_ F]. rewrite E in F.
      apply Forall_app in F as [_ F]. inversion F as [|? ? P _]; subst. unfold plain_char in P. vm_compute in P. intuition.
    - intros T. destruct T. reflexivity.
  Qed.

  Lemma stamp_tree_good : forall e i kind n, well_made i -> inner_ok i -> name_ok kind -> tree_good (fst (stamp_tree e kind i n)).
  Proof.
    intros e. induction i as [ps ms cs IH] using inner_deep. intros kind n W O K. rewrite stamp_tree_eq. cbn zeta. cbn [fst].
    inversion W as [? [B1 B2 B3 B4] D]; subst. inversion O as [? O1 O2 O3]; subst. cbn [i_props i_multi i_comps] in *.
    constructor; [easy| |].
    - repeat (apply Forall_app; split).
      + unfold stamp_of. destruct (map_get _ ps); [constructor|]. constructor; [apply stamp_prop_ok|constructor].
      + apply Forall_map, Forall_forall. intros [k p] I. apply (ksorted_get _ _ _ _ B1), O1 in I. apply I.
      + unfold uid_of. destruct (map_get _ ps); [constructor|]. constructor; [apply uid_prop_ok|constructor].
      + apply Forall_concat, Forall_map, Forall_forall. intros [k p] I. apply (ksorted_get _ _ _ _ B3), O2 in I. apply I.
    - generalize (snd (uid_of e ps (snd (stamp_of e ps n)))). intros m. clear - IH D O3. revert m.
      induction IH as [|[k c] cs H _ IH]; intros m; [constructor|]. inversion D; inversion O3; subst. cbn [fst snd] in *.
      constructor; [apply H; try easy; tauto|now apply IH].
  Qed.

  Lemma multi_name_not : forall k, is_multi_name k = false <-> ~ multi_name k.
  Proof. intros k. rewrite <- is_multi_name_spec. now destruct (is_multi_name k). Qed.

  Definition back (e : env) (kind : str) (i : inner) (n : nat) : inner := conv_inner (ptree (fst (stamp_tree e kind i n))).
  Lemma back_stamped : forall e i kind n, well_made i -> inner_ok i -> name_ok kind -> stamped e i (back e kind i n).
  Proof.
    intros e. induction i as [ps ms cs IH] using inner_deep. intros kind n W O K. unfold back.
    pose proof (stamp_tree_good e (mk_inner ps ms cs) kind n W O K) as G.
    rewrite stamp_tree_eq in *. cbn zeta in *. cbn [fst] in *.
    set (st := fst (stamp_of e ps n)) in *. set (ud := fst (uid_of e ps (snd (stamp_of e ps n)))) in *.
    set (ct := fst (stamp_trees e cs (snd (uid_of e ps (snd (stamp_of e ps n)))))) in *.
    inversion G as [? ? ? _ P C]; subst. clear G.
    inversion W as [? [B1 B2 B3 B4] D]; subst. inversion O as [? O1 O2 O3]; subst. cbn [i_props i_multi i_comps] in *.
    assert (ST : st = match map_get (lit "DTSTAMP") ps with Some _ => [] | None => [utc_prop "DTSTAMP" (now_at e n)] end).
    { unfold st, stamp_of. now destruct (map_get _ ps). }
    assert (UD : ud = match map_get (lit "UID") ps with Some _ => [] | None => [text_prop "UID" (fmt_uuid (uuid_at e (snd (stamp_of e ps n))))] end).
    { unfold ud, uid_of. now destruct (map_get (lit "UID") ps). }
    assert (M0 : forall k, is_multi_name k = false -> Forall (fun p => p_key p <> k) (concat (map snd ms))).
    { intros k N. apply Forall_forall. intros p I E. apply in_concat in I as (l & I & J). apply in_map_iff in I as ([k2 l2] & <- & I).
      rewrite Forall_forall in B4. specialize (B4 _ I) as B. cbn in B. destruct B as [_ B]. rewrite Forall_forall in B. apply B in J.
      apply (ksorted_get _ _ _ _ B3), O2 in I as [I _]. apply is_multi_name_spec in I. congruence. }
    assert (S0 : forall k, is_multi_name k = true -> Forall (fun p => p_key p <> k) (map snd ps)).
    { intros k N. apply Forall_forall. intros p I E. apply in_map_iff in I as ([k2 p2] & <- & I). cbn [snd] in E.
      rewrite Forall_forall in B2. specialize (B2 _ I) as B. cbn in B. apply (ksorted_get _ _ _ _ B1), O1 in I as [I _].
      apply multi_name_not in I. congruence. }
    assert (SG : forall k, is_multi_name k = false ->
      map_get k (i_props (conv_inner (ptree (Node kind (st ++ map snd ps ++ ud ++ concat (map snd ms)) ct))))
      = match last_with k ud with Some p => Some p | None =>
          match map_get k ps with Some p => Some p | None => last_with k st end end).
    { intros k N. rewrite conv_single, N by easy. rewrite !last_with_app, (last_with_none k (concat _)) by now apply M0.
      rewrite (last_with_map k ps) by easy. now destruct (last_with k ud). }
    constructor; cbn [i_props i_multi i_comps].
    - intros k N1 N2. destruct (is_multi_name k) eqn:M.
      + rewrite conv_single, M by easy. destruct (map_get k ps) eqn:E; [|easy]. apply O1 in E as [E _]. apply multi_name_not in E. congruence.
      + rewrite SG by easy. rewrite (last_with_none k ud), (last_with_none k st).
        * now destruct (map_get k ps).
        * rewrite ST. destruct (map_get (lit "DTSTAMP") ps); constructor; [|constructor]. intros <-. now apply N1.
        * rewrite UD. destruct (map_get (lit "UID") ps); constructor; [|constructor]. intros <-. now apply N2.
    - rewrite SG by reflexivity. rewrite (last_with_none _ ud).
      + destruct (map_get (lit "DTSTAMP") ps); [easy|]. rewrite ST. now exists n.
      + rewrite UD. destruct (map_get (lit "UID") ps); constructor; [|constructor]. cbn [text_prop p_key]. intros H. discriminate H.
    - rewrite SG by reflexivity. rewrite UD. destruct (map_get (lit "UID") ps) eqn:E; [easy|].
      now exists (snd (stamp_of e ps n)).
    - apply ksorted_ext; [|easy|].
      + pose proof (conv_inner_well (ptree (Node kind (st ++ map snd ps ++ ud ++ concat (map snd ms)) ct))) as Wl.
        inversion Wl as [? [? ? ? ?] ?]; subst. easy.
      + intros k. rewrite conv_multi by easy. destruct (is_multi_name k) eqn:M.
        * rewrite !filter_app. rewrite (filter_none k st), (filter_none k (map snd ps)), (filter_none k ud).
          -- cbn [app]. apply filter_multi; [|easy]. now apply ksorted_NoDup.
          -- rewrite UD. destruct (map_get (lit "UID") ps); constructor; [|constructor]. intros <-. now vm_compute in M.
          -- now apply S0.
          -- rewrite ST. destruct (map_get (lit "DTSTAMP") ps); constructor; [|constructor]. intros <-. now vm_compute in M.
        * destruct (map_get k ms) eqn:E; [|easy]. apply O2 in E as [E _]. apply is_multi_name_spec in E. congruence.
    - rewrite ptree_eq, conv_inner_comps. unfold ct. generalize (snd (uid_of e ps (snd (stamp_of e ps n)))). intros m.
      clear - IH D O3. revert m. induction IH as [|[k c] cs H _ IH]; intros m; [constructor|].
      inversion D; inversion O3; subst. cbn [stamp_trees fst snd map] in *. constructor; [|now apply IH].
      cbn [fst snd]. split; [|apply H; tauto]. destruct c as [cp cm cc]. rewrite stamp_tree_eq. cbn zeta. cbn [fst]. now rewrite ptree_eq.
  Qed.

  (** ** Calendars *)

  Definition kinds (cs : list cal_component) : list (str * inner) := map (fun c => (cc_kind c, cc_inner c)) cs.
  Lemma ccs_write_eq : forall e cs n, clock_ok e -> ccs_write e cs n
    = obind (trees_write (fst (stamp_trees e (kinds cs) n))) (fun s => Ret (s, snd (stamp_trees e (kinds cs) n))).
  Proof.
    intros e cs. induction cs as [|c cs IH]; intros n C; [easy|]. cbn [ccs_write kinds map]. fold (kinds cs).
    cbn [stamp_trees fst snd trees_write]. unfold cc_write. rewrite inner_write_tree by easy.
    destruct (tree_write _); cbn [obind]; try easy. rewrite IH by easy. now destruct (trees_write _).
  Qed.
  Definition cal_tree (e : env) (c : calendar) : tree :=
    Node (lit "VCALENDAR") (c_props c) (fst (stamp_trees e (kinds (c_comps c)) 0)).
  Lemma cal_write_tree : forall e c, clock_ok e -> cal_write e c = tree_write (cal_tree e c).
  Proof.
    intros e c C. unfold cal_write, cal_tree. rewrite tree_write_eq. destruct (props_write _); cbn [obind]; try easy.
    rewrite ccs_write_eq by easy. now destruct (trees_write _).
  Qed.
  Lemma kind_name : forall x, kind_ok x -> name_ok (cc_kind x).
  Proof.
    intros x H. destruct x as [i|i|i|[k i]]; cbn [cc_kind]; try (apply name_ok_spec; reflexivity). apply H.
  Qed.
  Lemma trees_good : forall e cs n, Forall (fun x => kind_ok x /\ made (cc_inner x) /\ inner_ok (cc_inner x)) cs ->
    Forall tree_good (fst (stamp_trees e (kinds cs) n)).
  Proof.
    intros e cs n F. revert n. induction F as [|c cs (K & M & O) _ IH]; intros n; cbn [kinds map stamp_trees fst]; constructor; [|apply IH].
    apply stamp_tree_good; [now apply made_well|easy|now apply kind_name].
  Qed.
  Lemma cal_tree_good : forall e c, cal_ok c -> tree_good (cal_tree e c).
  Proof.
    intros e c [P F]. constructor; [apply name_ok_spec; reflexivity|easy|now apply trees_good].
  Qed.
  Lemma ptree_name : forall t, pc_name (ptree t) = t_name t.
  Proof. intros [k ps cs]. now rewrite ptree_eq. Qed.
  Lemma stamp_tree_name : forall e i k n, t_name (fst (stamp_tree e k i n)) = k.
  Proof. intros e [ps ms cs] k n. now rewrite stamp_tree_eq. Qed.
  Lemma tree_text_unfold : forall t s, tree_fine t -> tree_write t = Ret s -> unfold s = render CrLf (wtree_of t).
  Proof.
    intros t s G H. apply tree_write_spec in H. pose proof (tree_unfold t G s [] H I) as E. rewrite app_nil_r in E.
    rewrite E. change (unfold []) with (@nil char). now rewrite app_nil_r.
  Qed.
  Lemma doc_back : forall t, tree_fine t -> read_component (render CrLf (wtree_of t)) = Ok (ptree t)
    /\ (t_name t = lit "VCALENDAR" -> read_calendar (render CrLf (wtree_of t)) = Ok (mk_pcal (map pline (t_props t)) (map ptree (t_subs t)))).
  Proof.
    intros t G. destruct (document_read CrLf (wtree_of t) (render CrLf (wtree_of t)) []) as (_ & _ & R1 & R2); try easy.
    - now apply wtree_of_ok.
    - apply render_text.
    - constructor.
    - cbn [app] in *. split; [exact R1|]. intros N. fold (ptree t) in R2. rewrite R2 by (rewrite ptree_name; easy).
      destruct t as [k ps cs]. now rewrite ptree_eq.
  Qed.

  Lemma conv_cc_back : forall e x n, kind_ok x ->
    conv_cc (ptree (fst (stamp_tree e (cc_kind x) (cc_inner x) n)))
    = match x with
      | CEvent i => CEvent (back e (lit "VEVENT") i n) | CTodo i => CTodo (back e (lit "VTODO") i n)
      | CVenue i => CVenue (back e (lit "VVENUE") i n) | COther (k, i) => COther (k, back e k i n)
      end.
  Proof.
    intros e x n K. unfold conv_cc. rewrite ptree_name, stamp_tree_name. destruct x as [i|i|i|[k i]]; try reflexivity.
    cbn [cc_kind cc_inner]. destruct K as [_ K].
    assert (A : forall w, In w [lit "VEVENT"; lit "VTODO"; lit "VVENUE"] -> str_eqb k w = false).
    { intros w I. apply str_eqb_neq. now intros ->. }
    now rewrite !A by (cbn [In]; auto).
  Qed.

  Theorem cal_round : forall e c s, clock_ok e -> cal_ok c -> cal_write e c = Ret s ->
    exists d, calendar_from_str s = Ok d /\ c_props d = c_props c /\ Forall2 (cc_stamped e) (c_comps c) (c_comps d)
      /\ Forall (fun x => well_made (cc_inner x)) (c_comps d).
  Proof.
    intros e c s C O H. rewrite cal_write_tree in H by easy. pose proof (tree_good_fine _ (cal_tree_good e c O)) as G.
    unfold calendar_from_str. rewrite (tree_text_unfold _ _ G H). destruct (doc_back _ G) as [_ R]. rewrite R by easy.
    cbn [rmap]. eexists. split; [reflexivity|]. unfold conv_cal, cal_tree. cbn [pcal_props pcal_comps t_props t_subs c_props c_comps].
    destruct O as [P F]. split; [|split].
    - rewrite map_map. clear - P. induction P as [|p l H _ IH]; [easy|]. cbn [map]. now rewrite pline_back, IH.
    - rewrite map_map. clear - F. generalize 0. induction F as [|x l (K & M & O) _ IH]; intros n; [constructor|].
      cbn [kinds map stamp_trees fst snd]. constructor; [|apply IH]. rewrite conv_cc_back by easy.
      pose proof (fun k => back_stamped e (cc_inner x) k n (made_well _ M) O) as B.
      pose proof (kind_name x K) as N. destruct x as [i|i|i|[k i]]; constructor; now apply B.
    - rewrite map_map. apply Forall_map, Forall_forall. intros t _. rewrite (proj2 (conv_cc_kind _)). apply conv_inner_well.
  Qed.

  (** ** Nothing to add *)

  Lemma stamped_same : forall e i j, well_made i -> well_made j -> has_stamps i -> stamped e i j -> j = i.
  Proof.
    intros e. induction i as [ps ms cs IH] using inner_deep. intros [ps' ms' cs'] Wi Wj H S.
    inversion Wi as [? [B1 B2 B3 B4] D]; subst. inversion Wj as [? [B1' B2' B3' B4'] D']; subst.
    inversion H as [? H1 H2 H3]; subst. inversion S as [? ? S1 S2 S3 S4 S5]; subst. cbn [i_props i_multi i_comps] in *.
    f_equal.
    - apply ksorted_ext; try easy. intros k. destruct (str_eq_dec k (lit "DTSTAMP")) as [->|N1].
      + now destruct (map_get (lit "DTSTAMP") ps).
      + destruct (str_eq_dec k (lit "UID")) as [->|N2]; [|now apply S1]. now destruct (map_get (lit "UID") ps).
    - easy.
    - clear - IH D D' H3 S5. revert IH D D' H3. induction S5 as [|[k i] [k' j] cs cs' [E S] F IH2]; intros; [easy|].
      inversion IH; inversion D; inversion D'; inversion H3; subst. cbn [fst snd] in *. subst. f_equal; [|now apply IH2].
      f_equal. auto.
  Qed.
  Lemma stamped_has : forall e i j, stamped e i j -> has_stamps j.
  Proof.
    intros e. induction i as [ps ms cs IH] using inner_deep. intros [ps' ms' cs'] S. inversion S as [? ? S1 S2 S3 S4 S5]; subst.
    cbn [i_props i_multi i_comps] in *. constructor; cbn [i_props i_comps].
    - destruct (map_get (lit "DTSTAMP") ps); [congruence|]. destruct S2. congruence.
    - destruct (map_get (lit "UID") ps); [congruence|]. destruct S3. congruence.
    - clear - IH S5. revert IH. induction S5 as [|[k i] [k' j] cs cs' [E S] F IH2]; intros; constructor; inversion IH; subst; eauto.
  Qed.
  Lemma stamped_ok : forall e i j, stamped e i j -> inner_ok i -> inner_ok j.
  Proof.
    intros e. induction i as [ps ms cs IH] using inner_deep. intros [ps' ms' cs'] S O. inversion S as [? ? S1 S2 S3 S4 S5]; subst.
    inversion O as [? O1 O2 O3]; subst. cbn [i_props i_multi i_comps] in *. constructor; cbn [i_props i_multi i_comps].
    - intros k p H. destruct (str_eq_dec k (lit "DTSTAMP")) as [->|N1].
      + destruct (map_get (lit "DTSTAMP") ps) as [q|] eqn:E.
        * apply O1. congruence.
        * destruct S2 as [m S2]. assert (p = utc_prop "DTSTAMP" (now_at e m)) as -> by congruence. split; [|apply stamp_prop_ok].
          apply multi_name_not. reflexivity.
      + destruct (str_eq_dec k (lit "UID")) as [->|N2].
        * destruct (map_get (lit "UID") ps) as [q|] eqn:E.
          -- apply O1. congruence.
          -- destruct S3 as [m S3]. assert (p = text_prop "UID" (fmt_uuid (uuid_at e m))) as -> by congruence. split; [|apply uid_prop_ok].
             apply multi_name_not. reflexivity.
        * apply O1. now rewrite <- S1.
    - now rewrite S4.
    - clear - IH S5 O3. revert IH O3. induction S5 as [|[k i] [k' j] cs cs' [E S] F IH2]; intros; constructor; inversion IH; inversion O3; subst; eauto.
      cbn [fst snd] in *. subst. split; [tauto|]. eapply H1; eauto. tauto.
  Qed.

  Lemma stamp_tree_same : forall e e' i k n n', has_stamps i -> fst (stamp_tree e k i n) = fst (stamp_tree e' k i n').
  Proof.
    intros e e'. induction i as [ps ms cs IH] using inner_deep. intros k n n' H. inversion H as [? H1 H2 H3]; subst.
    rewrite !stamp_tree_eq. cbn zeta. cbn [fst i_props i_comps] in *.
    assert (S0 : forall e n, stamp_of e ps n = ([], n)) by (intros; unfold stamp_of; now destruct (map_get _ ps)).
    assert (U0 : forall e n, uid_of e ps n = ([], n)) by (intros; unfold uid_of; now destruct (map_get (lit "UID") ps)).
    rewrite !S0. cbn [fst snd]. rewrite !U0. cbn [fst snd]. f_equal. clear - IH H3. revert n n' H3.
    induction IH as [|[k i] cs H _ IH]; intros n n' F; [easy|]. cbn [stamp_trees fst snd]. inversion F; subst. f_equal; [now apply H|now apply IH].
  Qed.
  Lemma stamp_trees_same : forall e e' cs n n', Forall (fun o => has_stamps (snd o)) cs ->
    fst (stamp_trees e cs n) = fst (stamp_trees e' cs n').
  Proof.
    intros e e' cs n n' F. revert n n'. induction F as [|[k i] cs H _ IH]; intros n n'; [easy|]. cbn [stamp_trees fst snd].
    f_equal; [now apply stamp_tree_same|apply IH].
  Qed.
  Lemma cal_write_same : forall e e' c, clock_ok e -> clock_ok e' -> Forall (fun x => has_stamps (cc_inner x)) (c_comps c) ->
    cal_write e c = cal_write e' c.
  Proof.
    intros e e' c C C' F. rewrite !cal_write_tree by easy. unfold cal_tree. do 2 f_equal. apply stamp_trees_same.
    apply Forall_map. easy.
  Qed.

  Theorem cal_fixed : forall e c s, clock_ok e -> cal_ok c -> Forall (fun x => has_stamps (cc_inner x)) (c_comps c) ->
    cal_write e c = Ret s -> calendar_from_str s = Ok c.
  Proof.
    intros e c s C O H W. destruct (cal_round e c s C O W) as (d & E & P & F & Wd). rewrite E. f_equal.
    destruct c as [ps cs], d as [ps' cs']. cbn [c_props c_comps] in *. subst ps'. f_equal.
    destruct O as [_ O]. cbn [c_comps] in O. clear - O H F Wd. revert O H Wd.
    assert (A : forall i j, made i -> well_made j -> has_stamps i -> stamped e i j -> j = i).
    { intros i j M W. now apply stamped_same, W; apply made_well. }
    induction F as [|x y cs cs' S F IH]; intros O H Wd; [easy|]. inversion O as [|? ? (_ & M & _) O2]; subst.
    inversion H; subst. inversion Wd; subst.
    f_equal; [|now apply IH]. destruct S; cbn [cc_inner] in *; f_equal; try f_equal; apply A; easy.
  Qed.
End Round.
