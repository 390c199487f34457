(** Which serialized calendars are written again as they were. *)
From Verif Require Import Str StrFacts Spec Fold UnfoldProofs FoldProofs Text TextProofs ValueTypes Property Chrono DateTime
  Component Alarm Calendar Nom Parser SpecBuild SpecDate SpecTree SpecDoc SpecConv SpecRound SpecExact SpecSettle BuildProofs DateProofs ValueProofs
  TreeProofs ParserProofs DocProofs ConvProofs RoundProofs LfProofs ExactProofs SurviveProofs InjectProofs FailProofs.
From Coq Require Import ZifyBool ZifyNat ZifyN.

Lemma str_lt_trans : forall a b c, str_lt a b -> str_lt b c -> str_lt a c.
Proof.
  intros a b c A. revert c. induction A as [x r|x y r q L|x r q A IH]; intros c B.
  - inversion B; subst; constructor.
  - inversion B as [|? z ? w M|? ? w M]; subst; [apply lt_head; lia|now apply lt_head].
  - inversion B as [|? z ? w M|? ? w M]; subst; [now apply lt_head|apply lt_tail; now apply IH].
Qed.
Lemma climb_anti : forall a b : str, a = b \/ str_lt a b -> b = a \/ str_lt b a -> a = b.
Proof. intros a b [A|A] [B|B]; auto. destruct (str_lt_irrefl a). now apply (str_lt_trans a b). Qed.

(** A list in ascending order of keys is determined by what it has under each key. *)
Definition under (k : str) (l : list property) : list property := filter (fun p => str_eqb (p_key p) k) l.
Lemma under_in : forall k l p, In p (under k l) <-> In p l /\ p_key p = k.
Proof. intros k l p. unfold under. rewrite filter_In. now rewrite str_eqb_eq. Qed.
Lemma under_app : forall k a b, under k (a ++ b) = under k a ++ under k b.
Proof. intros. apply filter_app. Qed.
Lemma under_none : forall k l, Forall (fun p => p_key p <> k) l -> under k l = [].
Proof.
  intros k l F. induction F as [|p l N _ IH]; [easy|]. unfold under. cbn [filter]. apply str_eqb_neq in N. now rewrite N.
Qed.
Lemma climbing_unique : forall a b, climbing (map p_key a) -> climbing (map p_key b) -> (forall k, under k a = under k b) -> a = b.
Proof.
  intros a. induction a as [|p a IH]; intros [|q b] A B E.
  - easy.
  - specialize (E (p_key q)). unfold under in E. cbn [filter] in E. rewrite str_eqb_refl in E. discriminate E.
  - specialize (E (p_key p)). unfold under in E. cbn [filter] in E. rewrite str_eqb_refl in E. discriminate E.
  - cbn [map climbing] in A, B. destruct A as [A1 A2], B as [B1 B2].
    assert (K : p_key p = p_key q).
    { apply climb_anti.
      - assert (I : In q (under (p_key q) (p :: a))) by (rewrite E; apply under_in; split; [now left|easy]).
        apply under_in in I as [[->|I] _]; [now left|]. rewrite Forall_forall in A1. apply A1. now apply in_map.
      - assert (I : In p (under (p_key p) (q :: b))) by (rewrite <- E; apply under_in; split; [now left|easy]).
        apply under_in in I as [[->|I] _]; [now left|]. rewrite Forall_forall in B1. apply B1. now apply in_map. }
    assert (Q : p = q).
    { specialize (E (p_key p)). unfold under in E. cbn [filter] in E. rewrite str_eqb_refl, K, str_eqb_refl in E. now injection E. }
    subst q. f_equal. apply IH; try easy. intros k. specialize (E k). unfold under in *. cbn [filter] in E.
    destruct (str_eqb (p_key p) k); [now injection E|easy].
Qed.
Lemma ascending_climbing : forall l, ascending l -> climbing l.
Proof.
  induction l as [|k l IH]; [easy|]. cbn [ascending climbing]. intros [A B]. split; [|now apply IH]. eapply Forall_impl; [|exact A]. now right.
Qed.
Lemma climbing_app : forall a b, climbing a -> climbing b -> (forall x y, In x a -> In y b -> x = y \/ str_lt x y) -> climbing (a ++ b).
Proof.
  induction a as [|k a IH]; intros b A B H; [easy|]. cbn [app climbing] in *. split.
  - apply Forall_app. split; [apply A|]. apply Forall_forall. intros y I. apply H; [now left|easy].
  - apply IH; try easy. intros x y I J. apply H; [now right|easy].
Qed.
Lemma groups_climb : forall m : list (str * list property), ksorted m -> Forall (fun '(k, ps) => ps <> [] /\ Forall (fun p => p_key p = k) ps) m ->
  climbing (map p_key (concat (map snd m))).
Proof.
  induction m as [|[k ps] m IH]; intros S F; [easy|]. inversion S as [|? ? ? S1 S2]; subst. inversion F as [|? ? F0 F2]; subst. destruct F0 as [_ F1].
  cbn [map concat snd]. rewrite map_app. apply climbing_app; [|now apply IH|].
  - clear - F1. induction F1 as [|p ps E F IH]; [easy|]. cbn [map climbing]. split; [|easy]. apply Forall_map. eapply Forall_impl; [|exact F].
    cbn beta. intros q Q. left. congruence.
  - intros x y I J. apply in_map_iff in I as (p & <- & I). apply in_map_iff in J as (q & <- & J). rewrite Forall_forall in F1. rewrite (F1 p I).
    apply in_concat in J as (g & J & K). apply in_map_iff in J as ([j qs] & <- & J). cbn [snd] in K. rewrite Forall_forall in F2.
    destruct (F2 _ J) as [_ F3]. rewrite Forall_forall in F3. rewrite (F3 q K). right. apply str_lt_cmp. unfold below in S1.
    rewrite Forall_forall in S1. now apply S1 in J.
Qed.
Lemma singles_asc : forall m : list (str * property), ksorted m -> Forall (fun '(k, p) => p_key p = k) m -> ascending (map p_key (map snd m)).
Proof.
  intros m S F. replace (map p_key (map snd m)) with (map fst m); [now apply ksorted_ascending|]. clear S.
  induction F as [|[k p] m E _ IH]; [easy|]. cbn [map fst snd]. now rewrite IH, E.
Qed.
Lemma under_singles : forall k (m : list (str * property)), ksorted m -> Forall (fun '(k, p) => p_key p = k) m ->
  under k (map snd m) = match map_get k m with Some p => [p] | None => [] end.
Proof.
  intros k m S F. induction S as [|j p m B S IH]; [easy|]. inversion F as [|? ? E F']; subst. cbn [map snd map_get]. unfold under in *. cbn [filter].
  rewrite str_eqb_sym. destruct (str_eqb k (p_key p)) eqn:Q; [|now apply IH]. apply str_eqb_eq in Q. subst k. f_equal. apply under_none.
  apply Forall_map, Forall_forall. intros [j q] I Q. unfold below in B. rewrite Forall_forall in B, F'. pose proof (B _ I) as L. pose proof (F' _ I) as K.
  cbn [fst snd] in *. rewrite <- K, Q in L. apply str_lt_cmp in L. now apply str_lt_irrefl in L.
Qed.
Lemma under_all : forall k l, Forall (fun p => p_key p = k) l -> under k l = l.
Proof. intros k l F. induction F as [|p l E _ IH]; [easy|]. unfold under in *. cbn [filter]. rewrite E, str_eqb_refl. now rewrite IH. Qed.
Lemma under_groups : forall k (m : list (str * list property)), ksorted m -> Forall (fun '(k, ps) => ps <> [] /\ Forall (fun p => p_key p = k) ps) m ->
  under k (concat (map snd m)) = match map_get k m with Some ps => ps | None => [] end.
Proof.
  intros k m S F. induction S as [|j ps m B S IH]; [easy|]. inversion F as [|? ? E0 F']; subst. destruct E0 as [_ E]. cbn [map snd concat map_get]. rewrite under_app.
  destruct (str_eqb k j) eqn:Q.
  - apply str_eqb_eq in Q. subst j. rewrite under_all by easy. rewrite under_none; [apply app_nil_r|].
    apply Forall_concat, Forall_map, Forall_forall. intros [j qs] I. unfold below in B. rewrite Forall_forall in B, F'. pose proof (B _ I) as L.
    destruct (F' _ I) as [_ K]. cbn [fst snd] in *. eapply Forall_impl; [|exact K]. cbn beta. intros q Q1 Q2. rewrite <- Q1, Q2 in L.
    apply str_lt_cmp in L. now apply str_lt_irrefl in L.
  - rewrite under_none; [now apply IH|]. eapply Forall_impl; [|exact E]. cbn beta. intros q Q1 Q2. apply str_eqb_neq in Q. congruence.
Qed.
(** The last one under a key of which there is one. *)
Lemma last_asc : forall k l p, ascending (map p_key l) -> In p l -> p_key p = k -> last_with k l = Some p.
Proof.
  intros k l p A I K. pose proof (last_with_spec k l) as L. destruct (last_with k l) as [q|].
  - destruct L as (a & b & -> & Q & _). f_equal. clear - A I K Q. induction a as [|x a IH].
    + cbn [app map ascending] in A. destruct A as [A _]. destruct I as [->|I]; [easy|]. rewrite Forall_forall in A.
      destruct (str_lt_irrefl k). rewrite <- Q at 1. rewrite <- K. apply A. now apply in_map.
    + cbn [app map ascending] in A. destruct A as [A B]. destruct I as [->|I]; [|now apply IH]. rewrite Forall_forall in A.
      destruct (str_lt_irrefl k). rewrite <- K at 1. rewrite <- Q. apply A. apply in_map. apply in_or_app. right. now left.
  - rewrite Forall_forall in L. now destruct (L p I).
Qed.
Lemma under_asc : forall k l, ascending (map p_key l) -> under k l = match last_with k l with Some p => [p] | None => [] end.
Proof.
  intros k l A. pose proof (last_with_spec k l) as L. destruct (last_with k l) as [q|]; [|now apply under_none].
  destruct L as (a & b & -> & Q & N). rewrite under_app. rewrite (under_none k a).
  - cbn [app]. unfold under. cbn [filter]. rewrite Q, str_eqb_refl. f_equal. now apply under_none.
  - clear - A Q. induction a as [|x a IH]; [constructor|]. cbn [app map ascending] in A. destruct A as [A B]. constructor; [|now apply IH].
    intros K. rewrite Forall_forall in A. destruct (str_lt_irrefl k). rewrite <- K at 1. rewrite <- Q. apply A. apply in_map. apply in_or_app. right. now left.
Qed.

Section Settle.
  Context {U : Unicode}.
  Definition back (p : property) : property := conv_prop (pline p).

  Lemma back_same : forall p, line_fine p -> (back p = p <-> unconfused p).
  Proof.
    intros p F. destruct (line_reread p F) as (K & P & T & V). fold (back p) in *. split.
    - intros E I. apply garbled_same. rewrite <- E at 2. now apply T.
    - intros N. assert (E : p_val (back p) = p_val p).
      { destruct (is_text_dec p) as [I|I]; [|now apply V]. eapply garbled_fun; [now apply T|]. now apply garbled_same, N. }
      destruct p as [k v q]. destruct (back _) as [k2 v2 q2]. cbn [p_key p_val p_params] in *. congruence.
  Qed.
  Lemma back_key : forall p, p_key (back p) = p_key p.
  Proof. intros p. unfold back, conv_prop. apply pline_name. Qed.

  (** The properties of the component that is read, in the order in which they are written. *)
  Lemma read_singles : forall k ps cs key, under key (map snd (i_props (conv_inner (ptree (Node k ps cs)))))
    = if is_multi_name key then [] else match last_with key ps with Some p => [back p] | None => [] end.
  Proof.
    intros k ps cs key. pose proof (conv_inner_well (ptree (Node k ps cs))) as W. inversion W as [? [B1 B2 B3 B4] _]; subst.
    rewrite under_singles by easy. rewrite conv_single_of. destruct (is_multi_name key); [easy|]. now destruct (last_with key ps).
  Qed.
  Lemma read_multis : forall k ps cs key, under key (concat (map snd (i_multi (conv_inner (ptree (Node k ps cs))))))
    = if is_multi_name key then map back (under key ps) else [].
  Proof.
    intros k ps cs key. pose proof (conv_inner_well (ptree (Node k ps cs))) as W. inversion W as [? [B1 B2 B3 B4] _]; subst.
    rewrite under_groups by easy. rewrite conv_multi_of. destruct (is_multi_name key); [|easy]. unfold under. now destruct (filter _ ps).
  Qed.
  Lemma map_split : forall (ps : list property) a b, map p_key ps = a ++ b -> exists x y, ps = x ++ y /\ map p_key x = a /\ map p_key y = b.
  Proof. intros ps a b E. apply map_eq_app in E as (x & y & -> & A & B). now exists x, y. Qed.
  Lemma keys_not : forall (Q : str -> Prop) l k, Forall Q (map p_key l) -> ~ Q k -> Forall (fun p => p_key p <> k) l.
  Proof. intros Q l k F N. rewrite Forall_map in F. eapply Forall_impl; [|exact F]. cbn beta. intros p H E. subst k. now apply N. Qed.
  Lemma map_back : forall l, Forall line_fine l -> (map back l = l <-> Forall unconfused l).
  Proof.
    intros l F. induction F as [|p l H _ IH]; [now split; constructor|]. cbn [map]. split.
    - intros E. injection E as E1 E2. constructor; [now apply back_same|now apply IH].
    - intros N. inversion N; subst. f_equal; [now apply back_same|now apply IH].
  Qed.
  Lemma under_Forall : forall Q k l, Forall Q l -> Forall Q (under k l).
  Proof. intros Q k l F. apply Forall_forall. intros p I. apply under_in in I as [I _]. rewrite Forall_forall in F. now apply F. Qed.

  Lemma props_settle : forall k ps cs, Forall line_fine ps ->
    (map snd (i_props (conv_inner (ptree (Node k ps cs)))) ++ concat (map snd (i_multi (conv_inner (ptree (Node k ps cs))))) = ps
     <-> sorted_names (map p_key ps) /\ Forall unconfused ps).
  Proof.
    intros k ps cs F. pose proof (conv_inner_well (ptree (Node k ps cs))) as W. inversion W as [? [B1 B2 B3 B4] _]; subst. clear W.
    pose proof (read_singles k ps cs) as R1. pose proof (read_multis k ps cs) as R2.
    pose proof (singles_asc _ B1 B2) as A1. pose proof (groups_climb _ B3 B4) as A2.
    set (a := map snd (i_props _)) in *. set (b := concat _) in *. clearbody a b. clear B1 B2 B3 B4.
    assert (Ka : Forall (fun p => ~ multi_name (p_key p)) a).
    { apply Forall_forall. intros p I M. assert (J : In p (under (p_key p) a)) by now apply under_in. rewrite R1 in J.
      apply is_multi_name_spec in M. rewrite M in J. destruct J. }
    assert (Kb : Forall (fun p => multi_name (p_key p)) b).
    { apply Forall_forall. intros p I. assert (J : In p (under (p_key p) b)) by now apply under_in. rewrite R2 in J.
      destruct (is_multi_name (p_key p)) eqn:M; [now apply is_multi_name_spec|destruct J]. }
    split.
    - intros E. split.
      + exists (map p_key a), (map p_key b). split; [now rewrite <- map_app, E|]. split; [now apply Forall_map|]. split; [easy|].
        split; [now apply Forall_map|easy].
      + rewrite <- E in F |- *. apply Forall_app in F as [Fa Fb]. apply Forall_app. split; apply Forall_forall; intros p I.
        * rewrite Forall_forall in Fa. apply back_same; [now apply Fa|]. pose proof (R1 (p_key p)) as R. rewrite Forall_forall in Ka.
          pose proof (Ka _ I) as M. apply multi_name_not in M as M'. rewrite M' in R. rewrite (under_asc _ a A1), (last_asc _ a p A1 I eq_refl) in R.
          rewrite <- E, RoundProofs.last_with_app, (RoundProofs.last_with_none _ b), (last_asc _ a p A1 I eq_refl) in R; [now injection R|].
          apply (keys_not multi_name); [now apply Forall_map|easy].
        * pose proof (R2 (p_key p)) as R. rewrite Forall_forall in Kb. pose proof (Kb _ I) as M. apply is_multi_name_spec in M as M'. rewrite M' in R.
          rewrite <- E, under_app in R. rewrite (under_none _ a) in R.
          2:{ apply (keys_not (fun k => ~ multi_name k)); [now apply Forall_map|]. intros N. now apply N. }
          cbn [app] in R. symmetry in R. apply map_back in R; [|now apply under_Forall]. rewrite Forall_forall in R. apply R. now apply under_in.
    - intros [(ka & kb & E & N1 & N2 & N3 & N4) T]. apply map_split in E as (x & y & -> & <- & <-). apply Forall_app in F as [Fx Fy].
      apply Forall_app in T as [Tx Ty]. f_equal.
      + apply climbing_unique; [now apply ascending_climbing|now apply ascending_climbing|]. intros key. rewrite R1. destruct (is_multi_name key) eqn:M.
        * symmetry. apply under_none. apply (keys_not (fun k => ~ multi_name k)); [easy|]. intros N. apply N. now apply is_multi_name_spec.
        * rewrite under_asc by easy. apply multi_name_not in M. rewrite RoundProofs.last_with_app, (RoundProofs.last_with_none _ y); [|now apply (keys_not multi_name)].
          pose proof (last_with_spec key x) as L. destruct (last_with key x) as [p|]; [|easy]. f_equal. destruct L as (u & v & -> & _).
          apply Forall_app in Fx as [_ Fx], Tx as [_ Tx]. inversion Fx; inversion Tx; subst. now apply back_same.
      + apply climbing_unique; [easy|easy|]. intros key. rewrite R2. destruct (is_multi_name key) eqn:M.
        * rewrite under_app, (under_none _ x). cbn [app]. { apply map_back; now apply under_Forall. }
          apply (keys_not (fun k => ~ multi_name k)); [easy|]. intros N. apply N. now apply is_multi_name_spec.
        * apply multi_name_not in M. symmetry. apply under_none. now apply (keys_not multi_name).
  Qed.

  (** Trees in which every component has a DTSTAMP and a UID. *)
  Inductive dated : tree -> Prop :=
  | Dated : forall k ps cs, (exists p, In p ps /\ p_key p = lit "DTSTAMP") -> (exists p, In p ps /\ p_key p = lit "UID") -> Forall dated cs ->
      dated (Node k ps cs).
  Lemma has_single : forall k ps cs key, is_multi_name key = false -> (exists p, In p ps /\ p_key p = key) ->
    map_get key (i_props (conv_inner (ptree (Node k ps cs)))) <> None.
  Proof.
    intros k ps cs key M (p & I & K). rewrite conv_single_of, M. pose proof (last_with_spec key ps) as L. destruct (last_with key ps); [discriminate|].
    rewrite Forall_forall in L. now destruct (L p I).
  Qed.
  Lemma tree_settle : forall e t n, tree_fit line_fine t -> dated t ->
    (fst (stamp_tree e (t_name t) (conv_inner (ptree t)) n) = t <-> settled t).
  Proof.
    intros e. induction t as [k ps cs IH] using tree_deep. intros n G D. inversion G as [? ? ? K P C]; subst. inversion D as [? ? ? D1 D2 D3]; subst.
    pose proof (props_settle k ps cs P) as Z. pose proof (has_single k ps cs (lit "DTSTAMP") eq_refl D1) as H1.
    pose proof (has_single k ps cs (lit "UID") eq_refl D2) as H2.
    assert (Q : i_comps (conv_inner (ptree (Node k ps cs))) = map (fun c => (t_name c, conv_inner (ptree c))) cs).
    { rewrite ptree_eq, conv_inner_comps, map_map. apply map_ext. intros t. now rewrite ptree_name. }
    cbn [t_name]. destruct (conv_inner (ptree (Node k ps cs))) as [is ms ds]. cbn [i_props i_multi i_comps] in *. subst ds. rewrite stamp_tree_eq.
    cbn zeta. cbn [fst]. unfold stamp_of, uid_of. destruct (map_get (lit "DTSTAMP") is); [|easy]. cbn [fst snd]. destruct (map_get (lit "UID") is); [|easy].
    cbn [fst snd app].
    assert (S : fst (stamp_trees e (map (fun c => (t_name c, conv_inner (ptree c))) cs) n) = cs <-> Forall settled cs).
    { clear - IH C D3. revert n. induction IH as [|c cs H _ IH]; intros n; [now split; constructor|]. inversion C; inversion D3; subst.
      cbn [map stamp_trees fst]. split.
      - intros E. injection E as E1 E2. constructor; [now apply (H n)|now apply IH in E2].
      - intros F. inversion F; subst. f_equal; [now apply H|now apply IH]. }
    split.
    - intros E. injection E as E1 E2. apply Z in E1 as [E1 E3]. constructor; try easy. now apply S.
    - intros E. inversion E as [? ? ? E1 E2 E3]; subst. f_equal; [now apply Z|now apply S].
  Qed.
  Lemma stamp_tree_dated : forall e i kind n, well_made i -> dated (fst (stamp_tree e kind i n)).
  Proof.
    intros e. induction i as [ps ms cs IH] using inner_deep. intros kind n W. rewrite stamp_tree_eq. cbn zeta. cbn [fst].
    inversion W as [? [B1 B2 B3 B4] D]; subst. cbn [i_props i_multi i_comps] in *.
    assert (G : forall key, map_get key ps <> None -> exists p, In p (map snd ps) /\ p_key p = key).
    { intros key H. destruct (map_get key ps) as [p|] eqn:E; [|easy]. apply StrFacts.map_get_in in E. exists p. split; [now apply (in_map snd) in E|].
      rewrite Forall_forall in B2. now apply B2 in E. }
    constructor.
    - pose proof (G (lit "DTSTAMP")) as H. unfold stamp_of at 1. destruct (map_get (lit "DTSTAMP") ps).
      + destruct H as (r & I & K); [discriminate|]. exists r. split; [|easy]. apply in_or_app. right. apply in_or_app. now left.
      + cbn [fst app]. eexists. split; [now left|]. reflexivity.
    - pose proof (G (lit "UID")) as H. unfold uid_of. destruct (map_get (lit "UID") ps).
      + destruct H as (r & I & K); [discriminate|]. exists r. split; [|easy]. apply in_or_app. right. apply in_or_app. now left.
      + cbn [fst app]. eexists. split; [apply in_or_app; right; apply in_or_app; right; now left|]. reflexivity.
    - generalize (snd (uid_of e ps (snd (stamp_of e ps n)))). intros m. clear - IH D. revert m.
      induction IH as [|[k c] cs H _ IH]; intros m; [constructor|]. inversion D; subst. cbn [fst snd] in *.
      constructor; [now apply H|now apply IH].
  Qed.

  (** It does not matter at which time the tree is written. *)
  Lemma settled_any : forall e t k i t', arranged e k i t -> arranged e k i t' -> settled t -> settled t'.
  Proof.
    intros e. induction t as [k0 ps0 cs0 IH] using tree_deep. intros k i t' A A' S.
    inversion A as [? ? st ps u gs cs A1 A2 A3 A4 A5 A6 A7]; subst. inversion A' as [? ? st' ps' u' gs' cs' A1' A2' A3' A4' A5' A6' A7']; subst.
    assert (ps' = ps) as ->. { apply (asc_unique _ p_key); [easy|easy|]. intros p. now rewrite A3', A3. }
    assert (gs' = gs) as ->. { apply (asc_unique _ fst); [easy|easy|]. intros [key g]. now rewrite A6', A6. }
    inversion S as [? ? ? S1 S2 S3]; subst.
    assert (E1 : map p_key st' = map p_key st /\ Forall unconfused st').
    { destruct (map_get (lit "DTSTAMP") (i_props i)); [subst; split; [easy|constructor]|]. destruct A1 as [m ->], A1' as [m' ->]. split; [easy|].
      constructor; [|constructor]. intros T. now apply (stamp_prop_ok (now_at e m')). }
    assert (E2 : map p_key u' = map p_key u /\ Forall unconfused u').
    { destruct (map_get (lit "UID") (i_props i)); [subst; split; [easy|constructor]|]. destruct A4 as [m ->], A4' as [m' ->]. split; [easy|].
      constructor; [|constructor]. intros T. now apply (uid_prop_ok (uuid_at e m')). }
    constructor.
    - rewrite !map_app in *. destruct E1 as [-> _], E2 as [-> _]. exact S1.
    - rewrite !Forall_app in *. destruct E1 as [_ E1], E2 as [_ E2]. tauto.
    - clear - IH A7 A7' S3. revert cs' A7'. induction A7 as [|o t os cs H _ IH2]; intros cs' A'; inversion A' as [|? t' ? cs'' H' A'']; subst; [constructor|].
      inversion IH; inversion S3; subst. constructor; [|now apply IH2]. eapply H2; eauto.
  Qed.
  Lemma settled_all : forall e cs ts ts', Forall2 (fun x t => arranged e (cc_kind x) (cc_inner x) t) cs ts ->
    Forall2 (fun x t => arranged e (cc_kind x) (cc_inner x) t) cs ts' -> Forall settled ts -> Forall settled ts'.
  Proof.
    intros e cs ts ts' A. revert ts'. induction A as [|x t cs ts H _ IH]; intros ts' A' S; inversion A' as [|? t' ? cs'' H' A'']; subst; [constructor|].
    inversion S; subst. constructor; [|now apply IH]. now apply (settled_any e t (cc_kind x) (cc_inner x)).
  Qed.

  (** ** Components and calendars *)
  Lemma read_fine : forall t, tree_fit line_fine t -> inner_fine (conv_inner (ptree t)).
  Proof.
    induction t as [k ps cs IH] using tree_deep. intros G. inversion G as [? ? ? K P C]; subst.
    assert (B : forall p, line_fine p -> line_fine (back p)).
    { intros p F. destruct (line_reread p F) as (E1 & E2 & E3 & E4). fold (back p) in *. destruct F as [H V].
      assert (T : is_text (back p) <-> is_text p) by (unfold is_text, prop_value_type; now rewrite E1, E2).
      split; [unfold head_ok; now rewrite E1, E2|]. intros N. rewrite E4 by now rewrite <- T. apply V. now rewrite <- T. }
    constructor.
    - intros key p E. rewrite conv_single_of in E. destruct (is_multi_name key); [easy|]. pose proof (last_with_spec key ps) as L.
      destruct (last_with key ps) as [q|]; [|easy]. cbn [option_map] in E. injection E as <-. apply B. destruct L as (a & b & -> & _).
      apply Forall_app in P as [_ P]. now inversion P.
    - intros key l E. rewrite conv_multi_of in E. destruct (is_multi_name key); [|easy].
      assert (Q : Forall line_fine (under key ps)) by now apply under_Forall. unfold under in Q.
      destruct (filter _ ps) as [|p r]; [easy|]. injection E as <-. clear - Q B. change (Forall line_fine (map back (p :: r))).
      induction Q as [|q l H _ IH]; [constructor|]. cbn [map]. constructor; [now apply B|easy].
    - rewrite ptree_eq, conv_inner_comps. clear - IH C. induction IH as [|c cs H _ IH]; [constructor|]. inversion C as [|? ? C1 C2]; subst.
      cbn [map]. constructor; [|now apply IH]. cbn [fst snd]. split; [|now apply H]. rewrite ptree_name. now inversion C1.
  Qed.
  Lemma read_comp_fine : forall t, tree_fit line_fine t -> comp_fine (conv_cc (ptree t)).
  Proof.
    intros t G. destruct (conv_cc_kind (ptree t)) as [C1 C2]. unfold comp_fine. rewrite C1, C2, ptree_name. split; [now inversion G|].
    split; [apply made_parsed|now apply read_fine].
  Qed.

  Theorem comp_settles : forall e e' x n s m t, clock_ok e -> clock_ok e' -> comp_fine x -> cc_write e x n = Ret (s, m) ->
    arranged e (cc_kind x) (cc_inner x) t ->
    exists d, cc_from_str s = Ok d /\ forall n', (exists m', cc_write e' d n' = Ret (s, m')) <-> settled t.
  Proof.
    intros e e' x n s m t C C' F W A. destruct (cc_tree e x n s m C F W) as (T & ET & G & TW & A0).
    assert (Fit : tree_fit line_fine T) by (subst T; destruct F as (K & M & O); apply stamp_tree_fit; [now apply made_well|easy|easy]).
    assert (Dt : dated T) by (subst T; destruct F as (K & M & O); now apply stamp_tree_dated, made_well).
    exists (conv_cc (ptree T)). split.
    { unfold cc_from_str. rewrite (tree_text_unfold _ _ G TW). destruct (doc_back _ G) as [R _]. now rewrite R. }
    intros n'. destruct (conv_cc_kind (ptree T)) as [C1 C2]. rewrite ptree_name in C1.
    assert (S : settled T <-> settled t) by (split; intros; [apply (settled_any e T (cc_kind x) (cc_inner x))|apply (settled_any e t (cc_kind x) (cc_inner x))]; easy).
    rewrite <- S. rewrite <- (tree_settle e' T n') by easy. unfold cc_write. rewrite C1, C2. rewrite inner_write_tree by easy. split.
    - intros (m' & W'). destruct (tree_write (fst (stamp_tree e' _ _ n'))) as [s'| |] eqn:T'; cbn [obind] in W'; try easy. injection W' as -> _.
      eapply trees_same_text; [|exact G|exact T'|exact TW]. apply fit_fine, stamp_tree_fit; [apply conv_inner_well|now apply read_fine|].
      inversion Fit; subst. easy.
    - intros E. rewrite E, TW. cbn [obind]. eexists. reflexivity.
  Qed.
  Theorem cal_settles : forall e e' c s ts, clock_ok e -> clock_ok e' -> cal_fine c -> cal_write e c = Ret s ->
    Forall2 (fun x t => arranged e (cc_kind x) (cc_inner x) t) (c_comps c) ts ->
    exists d, calendar_from_str s = Ok d /\ (cal_write e' d = Ret s <-> Forall unconfused (c_props c) /\ Forall settled ts).
  Proof.
    intros e e' c s ts C C' F W A. rewrite cal_write_tree in W by easy. pose proof (cal_fit e c F) as G. destruct F as [P F].
    pose proof (subs_arranged e (c_comps c) 0 F) as A0.
    assert (Fit : Forall (tree_fit line_fine) (fst (stamp_trees e (RoundProofs.kinds (c_comps c)) 0))).
    { clear - F. generalize 0. induction F as [|x l (K & M & O) _ IH]; intros n; cbn [RoundProofs.kinds map stamp_trees fst]; constructor; [|apply IH].
      apply stamp_tree_fit; [now apply made_well|easy|easy]. }
    assert (Dt : Forall dated (fst (stamp_trees e (RoundProofs.kinds (c_comps c)) 0))).
    { clear - F. generalize 0. induction F as [|x l (K & M & O) _ IH]; intros n; cbn [RoundProofs.kinds map stamp_trees fst]; constructor; [|apply IH].
      now apply stamp_tree_dated, made_well. }
    eexists. split.
    { unfold calendar_from_str. rewrite (tree_text_unfold _ _ G W). destruct (doc_back _ G) as [_ R]. rewrite R by easy. cbn [rmap]. reflexivity. }
    unfold conv_cal, cal_tree. cbn [pcal_props pcal_comps t_props t_subs c_props c_comps]. rewrite !map_map.
    assert (S : Forall settled (fst (stamp_trees e (RoundProofs.kinds (c_comps c)) 0)) <-> Forall settled ts) by (split; intros; [eapply (settled_all e (c_comps c) _ ts A0)|eapply (settled_all e (c_comps c) ts _ A)]; easy).
    rewrite <- S. rewrite cal_write_tree by easy. unfold cal_tree in *. cbn [c_props c_comps] in *.
    set (T := fst (stamp_trees e _ 0)) in *. clearbody T. clear S A A0.
    assert (K : forall n, fst (stamp_trees e' (RoundProofs.kinds (map (fun t => conv_cc (ptree t)) T)) n) = T <-> Forall settled T).
    { clear - Fit Dt C'. induction Fit as [|t T H _ IH]; intros n; [now split; constructor|]. inversion Dt; subst.
      cbn [map RoundProofs.kinds]. fold (RoundProofs.kinds (map (fun t => conv_cc (ptree t)) T)). destruct (conv_cc_kind (ptree t)) as [-> ->]. rewrite ptree_name.
      cbn [stamp_trees fst]. split.
      - intros E. injection E as E1 E2. constructor; [now apply tree_settle in E1|now apply IH in E2].
      - intros S. inversion S; subst. f_equal; [now apply tree_settle|now apply IH]. }
    change (fun x => conv_prop (pline x)) with back. split.
    - intros W'. assert (G' : tree_fine (Node (lit "VCALENDAR") (map back (c_props c)) (fst (stamp_trees e' (RoundProofs.kinds (map (fun t => conv_cc (ptree t)) T)) 0)))).
      { change (tree_fine (cal_tree e' (mk_calendar (map back (c_props c)) (map (fun t => conv_cc (ptree t)) T)))). apply cal_fit. split; cbn [c_props c_comps].
        - apply Forall_map. eapply Forall_impl; [|exact P]. cbn beta. intros p Fp. destruct (line_reread p Fp) as (E1 & E2 & E3 & E4). fold (back p) in *.
          destruct Fp as [H V]. assert (Te : is_text (back p) <-> is_text p) by (unfold is_text, prop_value_type; now rewrite E1, E2).
          split; [unfold head_ok; now rewrite E1, E2|]. intros N. rewrite E4 by now rewrite <- Te. apply V. now rewrite <- Te.
        - apply Forall_map. eapply Forall_impl; [|exact Fit]. exact read_comp_fine. }
      pose proof (trees_same_text _ _ s G' G W' W) as E. injection E as E1 E2. split; [now apply map_back|now apply K in E2].
    - intros [E1 E2]. apply map_back in E1; [|easy]. rewrite E1. apply (K 0) in E2. now rewrite E2.
  Qed.

  (** ** The same text *)
  Lemma stamped_tree : forall e e' i k n t, well_made i -> has_stamps i -> arranged e k i t -> t = fst (stamp_tree e' k i n).
  Proof.
    intros e0 e' i. revert e0. induction i as [ps ms cs IH] using inner_deep. intros e k n t W H A. pose proof (stamp_tree_arranged e' _ k n W) as A'.
    set (T := fst (stamp_tree _ _ _ n)) in *. clearbody T.
    inversion W as [? B D]; subst. inversion H as [? H1 H2 H3]; subst.
    inversion A as [? ? st qs u gs ts A1 A2 A3 A4 A5 A6 A7]; subst.
    inversion A' as [? ? st' qs' u' gs' ts' A1' A2' A3' A4' A5' A6' A7']; subst. cbn [i_props i_multi i_comps] in *.
    destruct (map_get (lit "DTSTAMP") ps); [|easy]. destruct (map_get (lit "UID") ps); [|easy]. subst st u st' u'. cbn [app] in *.
    assert (qs' = qs) as <-. { apply (asc_unique _ p_key); [easy|easy|]. intros r. now rewrite A3', A3. }
    assert (gs' = gs) as <-. { apply (asc_unique _ fst); [easy|easy|]. intros [key g]. now rewrite A6', A6. }
    f_equal. clear - IH D H3 A7 A7'. revert ts ts' A7 A7'. induction IH as [|[j c] cs Hc _ IH]; intros ts ts' A A'; inversion A; inversion A'; subst; [easy|].
    inversion D; inversion H3; subst. cbn [fst snd] in *. f_equal; [|now apply IH].
    transitivity (fst (stamp_tree e' j c 0)); [eapply Hc; eauto|]. symmetry. eapply Hc; eauto.
  Qed.
  Theorem comp_texts : forall e e' c d n n' m s, clock_ok e -> clock_ok e' -> comp_fine c -> comp_fine d -> has_stamps (cc_inner c) -> has_stamps (cc_inner d) ->
    cc_write e c n = Ret (s, m) ->
    ((exists m', cc_write e' d n' = Ret (s, m')) <-> exists t, arranged e (cc_kind c) (cc_inner c) t /\ arranged e' (cc_kind d) (cc_inner d) t).
  Proof.
    intros e e' c d n n' m s C C' F F' H H' W. split; [intros (m' & W'); eapply (comp_same_text e e' c d); eauto|].
    intros (t & A & A'). destruct (cc_tree e c n s m C F W) as (t0 & E0 & _ & T0 & _). destruct F as (_ & M & _), F' as (_ & M' & _). apply made_well in M, M'.
    rewrite <- (stamped_tree e e (cc_inner c) (cc_kind c) n t M H A) in E0. subst t0.
    unfold cc_write. rewrite inner_write_tree by easy. rewrite <- (stamped_tree e' e' (cc_inner d) (cc_kind d) n' t M' H' A'), T0. cbn [obind]. eexists. reflexivity.
  Qed.
  Theorem cal_texts : forall e e' c d s, clock_ok e -> clock_ok e' -> cal_fine c -> cal_fine d ->
    Forall (fun x => has_stamps (cc_inner x)) (c_comps c) -> Forall (fun x => has_stamps (cc_inner x)) (c_comps d) -> cal_write e c = Ret s ->
    (cal_write e' d = Ret s <-> c_props c = c_props d
       /\ exists ts, Forall2 (fun x t => arranged e (cc_kind x) (cc_inner x) t) (c_comps c) ts
          /\ Forall2 (fun x t => arranged e' (cc_kind x) (cc_inner x) t) (c_comps d) ts).
  Proof.
    intros e e' c d s C C' F F' H H' W. split; [intros W'; now apply (cal_same_text e e' c d s)|].
    intros (P & ts & A & A'). rewrite cal_write_tree in * by easy. rewrite <- W. f_equal. unfold cal_tree. rewrite P. f_equal.
    assert (Z : forall e cs n, Forall comp_fine cs -> Forall (fun x => has_stamps (cc_inner x)) cs -> Forall2 (fun x t => arranged e (cc_kind x) (cc_inner x) t) cs ts ->
      fst (stamp_trees e (RoundProofs.kinds cs) n) = ts).
    { clear. intros e cs n F H A. revert n. induction A as [|x t cs ts A _ IH]; intros n; [easy|]. inversion F as [|? ? (_ & M & _) F']; inversion H; subst.
      apply made_well in M. cbn [RoundProofs.kinds map stamp_trees fst]. rewrite <- (stamped_tree e e (cc_inner x) (cc_kind x) n t) by easy. f_equal. now apply IH. }
    destruct F as [_ F], F' as [_ F']. now rewrite (Z e), (Z e').
  Qed.
End Settle.
