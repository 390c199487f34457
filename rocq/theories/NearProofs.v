(** Documents that differ in one place. *)
From Verif Require Import Str StrFacts Spec Fold UnfoldProofs Text ValueTypes Property Chrono DateTime
  Component Alarm Calendar Nom Parser SpecBuild SpecDate SpecTree SpecDoc SpecConv SpecRound SpecNear BuildProofs ValueProofs
  TreeProofs ParserProofs DocProofs ConvProofs RoundProofs.
From Coq Require Import ZifyBool ZifyNat ZifyN.

Lemma find_skip : forall {A} (f : A -> bool) a o b, Forall (fun x => f x = false) o -> find f (rev (a ++ o ++ b)) = find f (rev (a ++ b)).
Proof.
  intros A f a o b F. rewrite !rev_app_distr, !find_app. destruct (find f (rev b)); [easy|].
  assert (N : find f (rev o) = None). { induction F as [|x l E _ IH]; [easy|]. cbn [rev]. rewrite find_app, IH. cbn. now rewrite E. }
  now rewrite N.
Qed.
Lemma filter_skip : forall {A} (f : A -> bool) o, Forall (fun x => f x = false) o -> filter f o = [].
Proof. intros A f o F. induction F as [|x l E _ IH]; [easy|]. cbn. now rewrite E. Qed.

Section Near.
  Context {U : Unicode}.
  Definition heads (its : list (wline + wtree)) : list pprop := flat_map (fun x => match x with inl l => [wline_read l] | inr _ => [] end) its.
  Definition bodies (its : list (wline + wtree)) : list pcomp := flat_map (fun x => match x with inl _ => [] | inr t => [wtree_read t] end) its.
  Lemma read_eq : forall n its, wtree_read (W n its) = mk_pcomp n (heads its) (bodies its).
  Proof. easy. Qed.
  Lemma heads_app : forall a b, heads (a ++ b) = heads a ++ heads b.
  Proof. intros. apply flat_map_app. Qed.
  Lemma bodies_app : forall a b, bodies (a ++ b) = bodies a ++ bodies b.
  Proof. intros. apply flat_map_app. Qed.
  Lemma heads_lines : forall ls, heads (map inl ls) = map wline_read ls.
  Proof. induction ls as [|l ls IH]; [easy|]. cbn. now rewrite <- IH. Qed.
  Lemma bodies_lines : forall ls, bodies (map inl ls) = [].
  Proof. induction ls as [|l ls IH]; [easy|]. exact IH. Qed.
  Definition said (ls : list wline) : list property := map (fun l => conv_prop (wline_read l)) ls.

  Lemma conv_key : forall p, p_key (conv_prop p) = Parser.pr_name p.
  Proof. easy. Qed.
  Lemma others_skip : forall ls k, others (said ls) k -> Forall (fun q => str_eqb (Parser.pr_name q) k = false) (map wline_read ls).
  Proof.
    intros ls k O. apply Forall_map, Forall_forall. intros l I. apply str_eqb_neq. rewrite <- conv_key. apply O. unfold said. now apply (in_map (fun l => conv_prop (wline_read l))).
  Qed.
  Lemma multi_filter : forall n ps cs k, multi_name k -> multi_at (conv_inner (mk_pcomp n ps cs)) k = map conv_prop (filter (fun q => str_eqb (Parser.pr_name q) k) ps).
  Proof.
    intros n ps cs k M. unfold multi_at. rewrite conv_inner_multi. apply is_multi_name_spec in M. rewrite M. now destruct (map conv_prop _).
  Qed.
  Lemma filter_conv : forall l k, map conv_prop (filter (fun q => str_eqb (Parser.pr_name q) k) l) = filter (fun p => str_eqb (p_key p) k) (map conv_prop l).
  Proof. induction l as [|l ls IH]; intros k; [easy|]. cbn [map filter]. rewrite conv_key. destruct (str_eqb _ k); cbn [map]; now rewrite IH. Qed.
  Lemma last_conv : forall l k, last_with k (map conv_prop l) = option_map conv_prop (find (fun q => str_eqb (Parser.pr_name q) k) (rev l)).
  Proof.
    intros l k. unfold last_with. rewrite <- map_rev. induction (rev l) as [|p r IH]; [easy|]. cbn [map find]. rewrite conv_key. now destruct (str_eqb _ k).
  Qed.
  Lemma inner_eta : forall i, i = mk_inner (i_props i) (i_multi i) (i_comps i).
  Proof. now intros []. Qed.

  Theorem conv_near : forall ls ls' t t', doc_edit ls ls' t t' ->
    pc_name (wtree_read t) = pc_name (wtree_read t') /\ inner_near (said ls) (said ls') (conv_inner (wtree_read t)) (conv_inner (wtree_read t')).
  Proof.
    intros ls ls' t t' E. induction E as [n a b|n a b t u E [IHn IH]]; (split; [easy|]); rewrite !read_eq, !heads_app, !bodies_app.
    - rewrite !heads_lines, !bodies_lines. apply (near_here _ _ _ _ (map conv_prop (heads a)) (map conv_prop (heads b))).
      + intros k O. assert (O1 : others (said ls) k) by (intros p I; apply O, in_or_app; now left). assert (O2 : others (said ls') k) by (intros p I; apply O, in_or_app; now right).
        apply others_skip in O1, O2. rewrite !conv_inner_single, !conv_inner_multi. rewrite !find_skip by easy. rewrite !filter_app. now rewrite !(filter_skip _ _ O1), !(filter_skip _ _ O2).
      + intros k M. rewrite !conv_inner_single. assert (E : is_multi_name k = false) by (apply not_true_is_false; now rewrite is_multi_name_spec). rewrite E, <- !last_conv, !map_app. unfold said. now rewrite !map_map.
      + intros k M. rewrite !multi_filter by easy. rewrite !filter_conv, !map_app. unfold said. now rewrite !map_map.
      + now rewrite !conv_inner_comps.
    - change (heads (inr t :: b)) with (heads b). change (heads (inr u :: b)) with (heads b).
      change (bodies (inr t :: b)) with (wtree_read t :: bodies b). change (bodies (inr u :: b)) with (wtree_read u :: bodies b).
      rewrite (inner_eta (conv_inner (mk_pcomp n (heads a ++ heads b) (bodies a ++ wtree_read t :: bodies b)))), (inner_eta (conv_inner (mk_pcomp n (heads a ++ heads b) (bodies a ++ wtree_read u :: bodies b)))).
      rewrite !conv_inner_comps, !map_app. cbn [map]. rewrite <- IHn.
      assert (P : forall c c', i_props (conv_inner (mk_pcomp n (heads a ++ heads b) c)) = i_props (conv_inner (mk_pcomp n (heads a ++ heads b) c'))
        /\ i_multi (conv_inner (mk_pcomp n (heads a ++ heads b) c)) = i_multi (conv_inner (mk_pcomp n (heads a ++ heads b) c'))).
      { intros c c'. cbn [conv_inner]. rewrite !insert_multi_props. cbn [i_props]. split; [easy|]. generalize (map conv_prop (filter is_multi (heads a ++ heads b))).
        generalize (fold_left (fun m p => bt_insert (Parser.pr_name p) (conv_prop p) m) (filter (fun p => negb (is_multi p)) (heads a ++ heads b)) []). intros m l.
        generalize (@nil (str * list property)). generalize (map (fun c => (pc_name c, conv_inner c)) c) (map (fun c => (pc_name c, conv_inner c)) c'). clear.
        induction l as [|p l IH]; intros x y z; [easy|]. cbn [fold_left]. unfold insert_multi at 2 4. cbn [i_multi i_props i_comps]. apply IH. }
      destruct (P (bodies a ++ wtree_read t :: bodies b) (bodies a ++ wtree_read u :: bodies b)) as [-> ->]. now apply near_below.
  Qed.
  Lemma conv_cc_near : forall old new c d, pc_name c = pc_name d -> inner_near old new (conv_inner c) (conv_inner d) -> cc_near old new (conv_cc c) (conv_cc d).
  Proof. intros old new c d N I. unfold conv_cc. rewrite <- N. repeat (destruct (str_eqb _ _); [exact I|]). now split. Qed.
  Definition doc_cal (t : wtree) : calendar :=
    if str_eqb (pc_name (wtree_read t)) (lit "VCALENDAR") then conv_cal (mk_pcal (pc_props (wtree_read t)) (pc_comps (wtree_read t)))
    else conv_cal (mk_pcal [] [wtree_read t]).
  Lemma doc_cal_near : forall ls ls' t t', doc_edit ls ls' t t' -> cal_near (said ls) (said ls') (doc_cal t) (doc_cal t').
  Proof.
    intros ls ls' t t' E. destruct (conv_near _ _ _ _ E) as [N I]. unfold doc_cal. rewrite <- N. destruct (str_eqb _ _).
    - clear N I. destruct E as [n a b|n a b t u E]; rewrite !read_eq; cbn [pc_props pc_comps]; unfold conv_cal; cbn [pcal_props pcal_comps]; rewrite !heads_app, !bodies_app.
      + rewrite !heads_lines, !bodies_lines, !map_app. unfold said. rewrite !map_map. apply near_props.
      + change (heads (inr t :: b)) with (heads b). change (heads (inr u :: b)) with (heads b).
        change (bodies (inr t :: b)) with (wtree_read t :: bodies b). change (bodies (inr u :: b)) with (wtree_read u :: bodies b).
        rewrite !map_app. cbn [map]. apply near_comp. destruct (conv_near _ _ _ _ E) as [N I]. now apply conv_cc_near.
    - unfold conv_cal. cbn [pcal_props pcal_comps map]. apply (near_comp _ _ [] []). now apply conv_cc_near.
  Qed.
  Lemma doc_reads : forall y t s u b, wtree_ok y t -> wtree_text y t u -> breaks b -> (y = Lf -> ~ has_crlf u) -> unfolds s (b ++ u) ->
    calendar_from_str s = Ok (doc_cal t).
  Proof.
    intros y t s u b O T B C F. apply unfold_eq in F. unfold calendar_from_str, read_calendar. rewrite F, (components_doc _ _ y t u b O T B C).
    cbn [finish rmap pcal_of_roots]. unfold doc_cal. now destruct (str_eqb _ _).
  Qed.
  Lemma said_says : forall ls, Forall2 says (map wline_read ls) (said ls).
  Proof. induction ls; constructor; [apply conv_prop_says|easy]. Qed.

  Theorem docs_near : forall ls ls' t t' y y' s s' u u' b b', doc_edit ls ls' t t' ->
    wtree_ok y t -> wtree_text y t u -> breaks b -> (y = Lf -> ~ has_crlf u) -> unfolds s (b ++ u) ->
    wtree_ok y' t' -> wtree_text y' t' u' -> breaks b' -> (y' = Lf -> ~ has_crlf u') -> unfolds s' (b' ++ u') ->
    exists c d old new, calendar_from_str s = Ok c /\ calendar_from_str s' = Ok d
      /\ Forall2 says (map wline_read ls) old /\ Forall2 says (map wline_read ls') new /\ cal_near old new c d.
  Proof.
    intros ls ls' t t' y y' s s' u u' b b' E O T B C F O' T' B' C' F'. exists (doc_cal t), (doc_cal t'), (said ls), (said ls').
    split; [now apply (doc_reads y t s u b)|]. split; [now apply (doc_reads y' t' s' u' b')|].
    split; [apply said_says|]. split; [apply said_says|]. now apply doc_cal_near.
  Qed.

  (** Editing the text. *)
  Lemma edit_ok : forall y ls ls' t t', doc_edit ls ls' t t' -> wtree_ok y t -> Forall (wline_ok y) ls' -> wtree_ok y t'.
  Proof.
    intros y ls ls' t t' E O L. induction E as [n a b|n a b t u E IH]; inversion O as [? ? N F]; subst; constructor; try easy.
    - apply Forall_app in F as [F1 F]. apply Forall_app in F as [_ F2]. apply Forall_app. split; [easy|]. apply Forall_app. split; [|easy].
      apply Forall_map. eapply Forall_impl; [|exact L]. intros l H. now constructor.
    - apply Forall_app in F as [F1 F]. apply Forall_app. split; [easy|]. inversion F as [|? ? H F2]; subst. constructor; [|easy]. constructor. apply IH. now inversion H.
  Qed.
  Lemma edit_text : forall y ls ls' t t', doc_edit ls ls' t t' -> forall u, wtree_text y t u ->
    exists x m z, u = x ++ m ++ z /\ lines_text y ls m /\ forall m', lines_text y ls' m' -> wtree_text y t' (x ++ m' ++ z).
  Proof.
    intros y ls ls' t t' E. induction E as [n a b|n a b t u E IH]; intros w T; inversion T as [? ? kb ke eb ee ss K1 K2 E1 E2 F]; subst.
    - apply Forall2_app_inv_l in F as (s1 & s' & F1 & F & ->). apply Forall2_app_inv_l in F as (s2 & s3 & F2 & F3 & ->).
      exists (kb ++ n ++ eb ++ concat s1), (concat s2), (concat s3 ++ ke ++ n ++ ee). split; [rewrite !concat_app, <- !app_assoc; easy|]. split.
      + exists s2. split; [|easy]. clear - F2. revert s2 F2. induction ls as [|l ls IH]; intros s2 F; inversion F as [|? ? ? ? H]; subst; constructor; [now inversion H|auto].
      + intros m' (ss & G & ->). replace ((kb ++ n ++ eb ++ concat s1) ++ concat ss ++ concat s3 ++ ke ++ n ++ ee) with (kb ++ n ++ eb ++ concat (s1 ++ ss ++ s3) ++ ke ++ n ++ ee) by (rewrite !concat_app, <- !app_assoc; easy).
        constructor; try easy. apply Forall2_app; [easy|]. apply Forall2_app; [|easy]. clear - G. induction G; constructor; [now constructor|easy].
    - apply Forall2_app_inv_l in F as (s1 & s' & F1 & F & ->). inversion F as [|? s2 ? s3 H F3]; subst. inversion H as [|? ? H']; subst. destruct (IH _ H') as (x & m & z & -> & L & G).
      exists (kb ++ n ++ eb ++ concat s1 ++ x), m, (z ++ concat s3 ++ ke ++ n ++ ee). split; [rewrite concat_app; cbn [concat]; rewrite <- !app_assoc; easy|]. split; [easy|].
      intros m' L'. replace ((kb ++ n ++ eb ++ concat s1 ++ x) ++ m' ++ z ++ concat s3 ++ ke ++ n ++ ee) with (kb ++ n ++ eb ++ concat (s1 ++ (x ++ m' ++ z) :: s3) ++ ke ++ n ++ ee) by (rewrite concat_app; cbn [concat]; rewrite <- !app_assoc; easy).
      constructor; try easy. apply Forall2_app; [easy|]. constructor; [|easy]. constructor. now apply G.
  Qed.
  Theorem text_edit : forall y ls ls' t t' u, doc_edit ls ls' t t' -> wtree_ok y t -> wtree_text y t u -> (y = Lf -> ~ has_crlf u) -> Forall (wline_ok y) ls' ->
    exists x m z, u = x ++ m ++ z /\ lines_text y ls m
      /\ forall m' b b' s s', lines_text y ls' m' -> (y = Lf -> ~ has_crlf (x ++ m' ++ z)) -> breaks b -> breaks b' ->
           unfolds s (b ++ x ++ m ++ z) -> unfolds s' (b' ++ x ++ m' ++ z) ->
           exists c d old new, calendar_from_str s = Ok c /\ calendar_from_str s' = Ok d
             /\ Forall2 says (map wline_read ls) old /\ Forall2 says (map wline_read ls') new /\ cal_near old new c d.
  Proof.
    intros y ls ls' t t' u E O T C L. destruct (edit_text y _ _ _ _ E u T) as (x & m & z & -> & M & G). exists x, m, z. split; [easy|]. split; [easy|].
    intros m' b b' s s' M' C' B B' F F'. apply (docs_near ls ls' t t' y y s s' (x ++ m ++ z) (x ++ m' ++ z) b b'); try easy; [now apply (edit_ok y ls ls' t)|now apply G].
  Qed.
End Near.
