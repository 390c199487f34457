(** Calendars that are put together. *)
From Verif Require Import Str StrFacts Spec Fold UnfoldProofs Text ValueTypes Property Chrono DateTime
  Component Alarm Calendar Nom Parser SpecBuild SpecDate SpecTree SpecDoc SpecConv SpecRound SpecExact SpecDiff SpecShape SpecSession SpecNear SpecMerge BuildProofs ValueProofs
  TreeProofs ParserProofs DocProofs ConvProofs RoundProofs ExactProofs DiffProofs ShapeProofs UserProofs SessionProofs NearProofs.
From Coq Require Import ZifyBool ZifyNat ZifyN.

Section Merge.
  Context {U : Unicode}.

  Lemma later_ok : forall n e, clock_ok e -> clock_ok (later n e).
  Proof. intros n e C m. apply C. Qed.

  Lemma inner_later : forall e n i k l s m, inner_write (later n e) k i l = Ret (s, m) -> inner_write e k i (n + l) = Ret (s, n + m).
  Proof.
    intros e n. induction i as [ps ms cs IH] using inner_deep. intros k l s m H. apply inner_ret in H as (pt & mt & ct & P & M & C & ->). apply inner_ret.
    assert (S1 : forall x, stamp_next ps (n + x) = n + stamp_next ps x) by (intros x; unfold stamp_next; destruct (map_get _ ps); lia).
    assert (S2 : forall x, uid_next ps (n + x) = n + uid_next ps x) by (intros x; unfold uid_next; destruct (map_get _ ps); lia).
    exists pt, mt, ct. split; [easy|]. split; [easy|]. split; [|now rewrite S1]. rewrite S1, S2. revert C. generalize (uid_next ps (stamp_next ps l)). revert ct m. clear - IH.
    induction IH as [|[k c] cs H _ IH]; intros ct m l C; cbn [inners_write] in *; [injection C as <- <-; easy|].
    destruct (inner_write (later n e) k c l) as [[t l']| |] eqn:E; cbn [obind] in C; try easy. destruct (inners_write (later n e) cs l') as [[r l'']| |] eqn:F; cbn [obind] in C; try easy.
    injection C as <- <-. cbn [snd] in H. rewrite (H _ _ _ _ E). cbn [obind]. rewrite (IH _ _ _ F). reflexivity.
  Qed.
  Lemma inners_later : forall e n cs l s m, inners_write (later n e) cs l = Ret (s, m) -> inners_write e cs (n + l) = Ret (s, n + m).
  Proof.
    intros e n. induction cs as [|[k c] cs IH]; intros l s m C; cbn [inners_write] in *; [injection C as <- <-; easy|].
    destruct (inner_write (later n e) k c l) as [[t l']| |] eqn:E; cbn [obind] in C; try easy. destruct (inners_write (later n e) cs l') as [[r l'']| |] eqn:F; cbn [obind] in C; try easy.
    injection C as <- <-. rewrite (inner_later _ _ _ _ _ _ _ E). cbn [obind]. rewrite (IH _ _ _ F). reflexivity.
  Qed.

  Lemma inner_readings : forall e i k n s m, inner_write e k i n = Ret (s, m) -> m = n + stamps_missing i.
  Proof.
    intros e. induction i as [ps ms cs IH] using inner_deep. intros k n s m H. apply inner_ret in H as (pt & mt & ct & _ & _ & C & _). cbn [stamps_missing].
    assert (S : uid_next ps (stamp_next ps n) = n + (match map_get (lit "DTSTAMP") ps with Some _ => 0 | None => 1 end) + (match map_get (lit "UID") ps with Some _ => 0 | None => 1 end)).
    { unfold uid_next, stamp_next. destruct (map_get (lit "DTSTAMP") ps), (map_get (lit "UID") ps); lia. }
    rewrite S in C. rewrite !Nat.add_assoc. revert C. generalize (n + (match map_get (lit "DTSTAMP") ps with Some _ => 0 | None => 1 end) + (match map_get (lit "UID") ps with Some _ => 0 | None => 1 end)).
    revert ct m. clear - IH. induction IH as [|[k c] cs H _ IH]; intros ct m l C; cbn [inners_write] in *; [injection C as _ <-; cbn; lia|].
    destruct (inner_write e k c l) as [[t l']| |] eqn:E; cbn [obind] in C; try easy. destruct (inners_write e cs l') as [[r l'']| |] eqn:F; cbn [obind] in C; try easy. injection C as _ <-.
    apply H in E. apply IH in F. cbn [map snd list_sum fold_right] in *. fold (list_sum (map (fun o => stamps_missing (snd o)) cs)). lia.
  Qed.
  Lemma comps_readings : forall e cs n s m, inners_write e (map (fun c => (cc_kind c, cc_inner c)) cs) n = Ret (s, m) -> m = n + list_sum (map (fun x => stamps_missing (cc_inner x)) cs).
  Proof.
    intros e. induction cs as [|x cs IH]; intros n s m C; cbn [map inners_write] in C; [injection C as _ <-; cbn; lia|].
    destruct (inner_write e _ _ n) as [[t l']| |] eqn:E; cbn [obind] in C; try easy. destruct (inners_write e _ l') as [[r l'']| |] eqn:F; cbn [obind] in C; try easy. injection C as _ <-.
    apply inner_readings in E. apply IH in F. cbn [map list_sum fold_right]. fold (list_sum (map (fun x => stamps_missing (cc_inner x)) cs)). lia.
  Qed.
  Theorem merged_text : forall e c s, cal_write e c = Ret s -> exists h x, cal_write e (mk_calendar (c_props c) []) = Ret (h ++ foot) /\ s = h ++ x ++ foot
    /\ forall d t, cal_write (later (cal_missing c) e) d = Ret t -> exists k y, cal_write (later (cal_missing c) e) (snd (cal_append c d)) = Ret (k ++ foot) /\ t = k ++ y ++ foot
         /\ cal_write e (fst (cal_append c d)) = Ret (h ++ x ++ y ++ foot).
  Proof.
    intros e c s H. apply cal_ret in H as (pt & ct & n & P & C & ->). assert (N := comps_readings _ _ _ _ _ C). rewrite Nat.add_0_l in N. fold (cal_missing c) in N. rewrite <- N.
    exists (lit "BEGIN:VCALENDAR" ++ crlf ++ pt), ct. split; [|split].
    - apply cal_ret. exists pt, [], 0. split; [easy|]. split; [easy|]. unfold foot. now rewrite <- !app_assoc.
    - unfold foot. now rewrite <- !app_assoc.
    - intros d t H. apply cal_ret in H as (qt & dt & m & Q & D & ->). exists (lit "BEGIN:VCALENDAR" ++ crlf ++ qt), dt. split; [|split].
      + apply cal_ret. exists qt, [], 0. split; [easy|]. split; [easy|]. unfold foot. now rewrite <- !app_assoc.
      + unfold foot. now rewrite <- !app_assoc.
      + apply cal_ret. cbn [cal_append fst c_props c_comps]. exists pt, (ct ++ dt), (n + m). split; [easy|]. split; [|unfold foot; now rewrite <- !app_assoc].
        rewrite map_app. apply inners_split. exists ct, n, dt. split; [easy|]. split; [|easy]. apply inners_later in D. now rewrite Nat.add_0_r in D.
  Qed.
  Theorem stamped_text : forall e e' c d s t, clock_ok e -> clock_ok e' -> Forall (fun x => has_stamps (cc_inner x)) (c_comps d) ->
    cal_write e c = Ret s -> cal_write e' d = Ret t ->
    exists h x k y, cal_write e (mk_calendar (c_props c) []) = Ret (h ++ foot) /\ s = h ++ x ++ foot
      /\ cal_write e' (snd (cal_append c d)) = Ret (k ++ foot) /\ t = k ++ y ++ foot /\ cal_write e (fst (cal_append c d)) = Ret (h ++ x ++ y ++ foot).
  Proof.
    intros e e' c d s t C C' F S T. destruct (merged_text e c s S) as (h & x & H & E & M). set (n := cal_missing c) in *. pose proof (later_ok n e C) as L.
    rewrite (cal_write_same e' (later n e) d C' L F) in T. destruct (M d t T) as (k & y & K & E' & R). exists h, x, k, y. split; [easy|]. split; [easy|].
    split; [|now split]. rewrite (cal_write_same e' (later n e)); [easy|easy|easy|apply Forall_nil].
  Qed.

  Lemma merged_fine : forall c d, cal_fine c -> cal_fine d -> cal_fine (fst (cal_append c d)).
  Proof. intros c d [P F] [_ G]. split; cbn [cal_append fst c_props c_comps]; [easy|]. now apply Forall_app. Qed.

  Lemma stamp_tree_later : forall e n i k l, stamp_tree (later n e) k i l = (fst (stamp_tree e k i (n + l)), snd (stamp_tree e k i (n + l)) - n) /\ n <= snd (stamp_tree e k i (n + l)).
  Proof.
    intros e n. induction i as [ps ms cs IH] using inner_deep. intros k l. rewrite !stamp_tree_eq. cbn zeta.
    assert (S1 : stamp_of e ps (n + l) = (fst (stamp_of (later n e) ps l), n + snd (stamp_of (later n e) ps l))).
    { unfold stamp_of. destruct (map_get _ ps); cbn [fst snd]; [easy|]. now rewrite Nat.add_succ_r. }
    rewrite S1. cbn [fst snd]. generalize (stamp_of (later n e) ps l) as st. intros [st x]. cbn [fst snd].
    assert (S2 : uid_of e ps (n + x) = (fst (uid_of (later n e) ps x), n + snd (uid_of (later n e) ps x))).
    { unfold uid_of. destruct (map_get _ ps); cbn [fst snd]; [easy|]. now rewrite Nat.add_succ_r. }
    rewrite S2. cbn [fst snd]. generalize (uid_of (later n e) ps x) as ud. intros [ud z]. cbn [fst snd].
    assert (T : stamp_trees (later n e) cs z = (fst (stamp_trees e cs (n + z)), snd (stamp_trees e cs (n + z)) - n) /\ n <= snd (stamp_trees e cs (n + z))).
    { revert z. clear - IH. induction IH as [|[k c] cs H _ IH]; intros z; cbn [stamp_trees fst snd]; [split; [f_equal; lia|lia]|]. cbn [snd] in H. destruct (H k z) as [E L]. rewrite E. cbn [fst snd].
      destruct (IH (snd (stamp_tree e k c (n + z)) - n)) as [E' L']. rewrite E'. cbn [fst snd]. replace (n + (snd (stamp_tree e k c (n + z)) - n)) with (snd (stamp_tree e k c (n + z))) in * by lia. now split. }
    destruct T as [-> T]. cbn [fst snd]. now split.
  Qed.
  Lemma stamp_trees_later : forall e n cs l, fst (stamp_trees (later n e) cs l) = fst (stamp_trees e cs (n + l)).
  Proof.
    intros e n. induction cs as [|[k c] cs IH]; intros l; cbn [stamp_trees fst snd]; [easy|]. destruct (stamp_tree_later e n c k l) as [E L]. rewrite E. cbn [fst snd]. rewrite IH. repeat f_equal. lia.
  Qed.
  Lemma stamp_trees_app : forall e a b n, fst (stamp_trees e (a ++ b) n) = fst (stamp_trees e a n) ++ fst (stamp_trees e b (snd (stamp_trees e a n))).
  Proof. intros e. induction a as [|[k c] a IH]; intros b n; cbn [app stamp_trees fst snd]; [easy|]. now rewrite IH. Qed.
  Lemma inners_count : forall e cs n s m, clock_ok e -> inners_write e cs n = Ret (s, m) -> m = snd (stamp_trees e cs n).
  Proof.
    intros e cs n s m C. revert n s m. induction cs as [|[k c] cs IH]; intros n s m H; cbn [inners_write stamp_trees snd] in *; [now injection H|].
    rewrite inner_write_tree in H by easy. destruct (tree_write _) as [t| |]; cbn [obind] in H; try easy. destruct (inners_write e cs _) as [[r l]| |] eqn:E; cbn [obind] in H; try easy.
    injection H as _ <-. now apply IH in E.
  Qed.

  (** What is read back of a merged calendar is what is read back of both. *)
  Theorem merged_loads : forall e c s, clock_ok e -> cal_fine c -> cal_write e c = Ret s -> forall d t, cal_fine d -> cal_write (later (cal_missing c) e) d = Ret t ->
    exists c' d' s', calendar_from_str s = Ok c' /\ calendar_from_str t = Ok d' /\ cal_write e (fst (cal_append c d)) = Ret s' /\ calendar_from_str s' = Ok (fst (cal_append c' d')).
  Proof.
    intros e c s C F S. assert (S0 := S). apply cal_ret in S0 as (pt & ct & n & P & N & _). assert (K := inners_count _ _ _ _ _ C N). assert (R := comps_readings _ _ _ _ _ N). rewrite Nat.add_0_l in R. fold (cal_missing c) in R. rewrite <- R. intros d t G T.
    assert (M : exists s', cal_write e (fst (cal_append c d)) = Ret s').
    { apply cal_ret in T as (qt & dt & m & Q & D & _). eexists. apply cal_ret. cbn [cal_append fst c_props c_comps]. exists pt, (ct ++ dt), (n + m). split; [easy|]. split; [|reflexivity].
      rewrite map_app. apply inners_split. exists ct, n, dt. split; [easy|]. split; [|easy]. apply inners_later in D. now rewrite Nat.add_0_r in D. }
    destruct M as [s' M]. do 2 eexists. exists s'. split; [exact (fine_back e c s C F S)|]. split; [exact (fine_back _ d t (later_ok n e C) G T)|]. split; [exact M|].
    rewrite (fine_back e _ s' C (merged_fine c d F G) M). f_equal. unfold cal_append. cbn [fst c_props c_comps t_props t_subs cal_tree]. f_equal.
    unfold kinds. rewrite map_app, stamp_trees_app, map_app. f_equal. rewrite stamp_trees_later, Nat.add_0_r, K. reflexivity.
  Qed.
  Theorem stamped_loads : forall e e' c d s t, clock_ok e -> clock_ok e' -> cal_fine c -> cal_fine d -> Forall (fun x => has_stamps (cc_inner x)) (c_comps d) ->
    cal_write e c = Ret s -> cal_write e' d = Ret t ->
    exists c' d' s', calendar_from_str s = Ok c' /\ calendar_from_str t = Ok d' /\ cal_write e (fst (cal_append c d)) = Ret s' /\ calendar_from_str s' = Ok (fst (cal_append c' d')).
  Proof.
    intros e e' c d s t C C' F G H S T. apply (merged_loads e c s C F S d t G). now rewrite <- (cal_write_same e' (later (cal_missing c) e) d C' (later_ok _ e C) H).
  Qed.

  Lemma bodies_parts : forall b, heads (doc_parts b) = [] /\ bodies (doc_parts b) = bodies b.
  Proof. induction b as [|[l|t] b [H B]]; [easy|now split|]. cbn [doc_parts flat_map app]. fold (doc_parts b). change (heads (inr t :: doc_parts b)) with (heads (doc_parts b)).
    change (bodies (inr t :: doc_parts b)) with (wtree_read t :: bodies (doc_parts b)). rewrite H, B. now split. Qed.
  Theorem docs_merged : forall t t' t2 y y' y2 s s' s2 u u' u2 b b' b2, doc_merged t t' t2 ->
    wtree_ok y t -> wtree_text y t u -> breaks b -> (y = Lf -> ~ has_crlf u) -> unfolds s (b ++ u) ->
    wtree_ok y' t' -> wtree_text y' t' u' -> breaks b' -> (y' = Lf -> ~ has_crlf u') -> unfolds s' (b' ++ u') ->
    wtree_ok y2 t2 -> wtree_text y2 t2 u2 -> breaks b2 -> (y2 = Lf -> ~ has_crlf u2) -> unfolds s2 (b2 ++ u2) ->
    exists c d, calendar_from_str s = Ok c /\ calendar_from_str s' = Ok d /\ calendar_from_str s2 = Ok (fst (cal_append c d)).
  Proof.
    intros t t' t2 y y' y2 s s' s2 u u' u2 b b' b2 M O T B C F O' T' B' C' F' O2 T2 B2 C2 F2. exists (doc_cal t), (doc_cal t').
    split; [now apply (doc_reads y t s u b)|]. split; [now apply (doc_reads y' t' s' u' b')|]. rewrite (doc_reads y2 t2 s2 u2 b2 O2 T2 B2 C2 F2). f_equal.
    destruct M as [x z]. unfold doc_cal. rewrite !read_eq. cbn [pc_name]. rewrite str_eqb_refl. cbn [pc_props pc_comps]. unfold conv_cal, cal_append. cbn [pcal_props pcal_comps fst c_props c_comps].
    rewrite heads_app, bodies_app. destruct (bodies_parts z) as [-> ->]. now rewrite app_nil_r, map_app.
  Qed.
  (** Such a document is a document, and its text is put together from the texts. *)
  Theorem merged_doc : forall y t t' t2 u u', doc_merged t t' t2 -> wtree_ok y t -> wtree_ok y t' -> wtree_text y t u -> wtree_text y t' u' ->
    wtree_ok y t2 /\ exists a z l, u = a ++ z /\ Forall2 (fun x s => exists w, x = inr w /\ wtree_text y w s) (match t' with W _ b => doc_parts b end) l
      /\ Forall (fun p => exists b d, u' = b ++ p ++ d) l /\ wtree_text y t2 (a ++ concat l ++ z).
  Proof.
    intros y t t' t2 u u' M O O' T T'. destruct M as [x z]. inversion O as [? ? N F]; subst. inversion O' as [? ? _ F']; subst.
    assert (G : Forall (either (wline_ok y) (wtree_ok y)) (doc_parts z)). { clear - F'. induction F' as [|[l|w] z H _ IH]; [apply Forall_nil|exact IH|]. apply Forall_cons; [exact H|exact IH]. }
    split; [constructor; [easy|]; now apply Forall_app|]. inversion T as [? ? kb ke eb ee ss K1 K2 L1 L2 S]; subst. inversion T' as [? ? kb' ke' eb' ee' ss' _ _ _ _ S']; subst.
    assert (H : exists l, Forall2 (fun x s => exists w, x = inr w /\ wtree_text y w s) (doc_parts z) l /\ Forall2 (either2 (fun l s => exists e, line_end y e /\ s = wline_text l ++ e) (wtree_text y)) (doc_parts z) l
      /\ forall p, In p l -> In p ss').
    { clear - S'. induction S' as [|[l|w] s z ss H _ IH]; [exists []; split; [apply Forall2_nil|split; [apply Forall2_nil|easy]]|destruct IH as (l' & I & J & K); exists l'; split; [exact I|]; split; [exact J|]; intros p P; right; now apply K|].
      destruct IH as (l & I & J & K). exists (s :: l). split; [|split; [|intros p [<-|P]; [now left|right; now apply K]]]; apply Forall2_cons; [exists w; split; [reflexivity|first [exact H|now inversion H]]|exact I|exact H|exact J]. }
    destruct H as (l & I & J & K). exists (kb ++ lit "VCALENDAR" ++ eb ++ concat ss), (ke ++ lit "VCALENDAR" ++ ee), l.
    split; [now rewrite <- !app_assoc|]. split; [exact I|]. split.
    { apply Forall_forall. intros p P. apply K in P. apply in_split in P as (a & b & ->). rewrite concat_app. cbn [concat]. exists (kb' ++ lit "VCALENDAR" ++ eb' ++ concat a), (concat b ++ ke' ++ lit "VCALENDAR" ++ ee'). now rewrite <- !app_assoc. }
    replace ((kb ++ lit "VCALENDAR" ++ eb ++ concat ss) ++ concat l ++ ke ++ lit "VCALENDAR" ++ ee) with (kb ++ lit "VCALENDAR" ++ eb ++ concat (ss ++ l) ++ ke ++ lit "VCALENDAR" ++ ee) by (now rewrite concat_app, <- !app_assoc).
    constructor; try easy. now apply Forall2_app.
  Qed.
End Merge.
