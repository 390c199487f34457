(** How writing fails: proofs. *)
From Verif Require Import Str StrFacts Spec Fold Text ValueTypes Property Chrono DateTime Component Calendar Nom Parser
  SpecBuild SpecDate SpecTree SpecText SpecFold SpecFail FoldProofs BuildProofs TreeProofs WrittenProofs CutProofs.
From Coq Require Import ZifyBool ZifyNat ZifyN.

(** ** Lines *)

(** One turn of the loop behind [a]. *)
Lemma turn : forall f l a r n acc, l = a ++ r -> 75 < octets r ->
  fold_loop (S f) l (blen l - blen a) (blen a) n acc =
  match back_up l (np1 l n) with
  | None => Panic
  | Some q => match slice l (blen a) q with
              | None => Panic
              | Some s => fold_loop f l (blen l - blen a - (q - blen a)) q (q + 74) (acc ++ s ++ [CR; LF; SP])
              end
  end.
Proof.
  intros f l a r n acc -> L. rewrite fold_loop_S. rewrite octets_blen in L. rewrite !blen_app. unfold LIMIT.
  now replace (blen a + blen r - blen a <=? 75) with false by lia.
Qed.
Lemma slice_before : forall l a b, b < a -> slice l a b = None.
Proof. intros l a b H. unfold slice. now replace (b <? a) with true by lia. Qed.
Lemma turn_piece : forall f l a p r n acc, l = a ++ p ++ r -> 75 < octets (p ++ r) -> cut_place l n (octets (a ++ p)) ->
  fold_loop (S f) l (blen l - blen a) (blen a) n acc =
  fold_loop f l (blen l - blen (a ++ p)) (blen (a ++ p)) (octets (a ++ p) + 74) (acc ++ p ++ [CR; LF; SP]).
Proof.
  intros f l a p r n acc E L C. rewrite (turn _ _ _ _ _ _ E L). apply cut_place_spec in C. rewrite C, octets_blen. subst l.
  rewrite slice_app. f_equal. rewrite !blen_app. lia.
Qed.
Lemma panics_loop : forall l a n, cut_panics l a n -> forall acc, exists f, fold_loop f l (blen l - blen a) (blen a) n acc = Panic.
Proof.
  intros l a n H. induction H as [a n r q E L C B|a n r E L C|a n p r E L C H IH]; intros acc.
  - exists 1. rewrite (turn _ _ _ _ _ _ E L). apply cut_place_spec in C. rewrite C, slice_before; [easy|]. now rewrite <- octets_blen.
  - exists 1. rewrite (turn _ _ _ _ _ _ E L). destruct (back_up l (np1 l n)) as [q|] eqn:B; [|easy].
    now apply cut_place_spec, C in B.
  - destruct (IH (acc ++ p ++ [CR; LF; SP])) as [f F]. exists (S f). now rewrite (turn_piece _ _ _ _ _ _ _ E L C).
Qed.
Lemma circles_loop : forall l a n, cut_circles l a n -> forall f acc, fold_loop f l (blen l - blen a) (blen a) n acc = NoFuel.
Proof.
  intros l a n H. induction H as [a r E L C|a n p r E L C H IH]; intros f acc.
  - revert acc. induction f as [|f IH]; intros acc; [easy|].
    assert (E' : l = a ++ [] ++ r) by easy. rewrite (turn_piece f l a [] r _ acc E' L); rewrite app_nil_r; [apply IH|easy].
  - destruct f as [|f]; [easy|]. now rewrite (turn_piece _ _ _ _ _ _ _ E L C).
Qed.
(** The piece that a turn cuts off. *)
Lemma turn_slice : forall l a r q s, l = a ++ r -> slice l (blen a) q = Some s -> exists y, r = s ++ y /\ q = blen (a ++ s).
Proof.
  intros l a r q s E S. apply slice_spec in S as (x & y & Q & Lx & Lp). rewrite E in Q. apply app_inv_blen in Q as [<- Q]; [|easy].
  exists y. split; [easy|]. rewrite blen_app. lia.
Qed.
Lemma turn_last : forall f l a r n acc, l = a ++ r -> octets r <= 75 -> fold_loop (S f) l (blen l - blen a) (blen a) n acc = Ret (acc ++ r).
Proof.
  intros f l a r n acc -> L. rewrite octets_blen in L. rewrite fold_loop_S, blen_app. unfold LIMIT.
  replace (blen a + blen r - blen a <=? 75) with true by lia.
  replace (blen a + blen r - (blen a + blen r - blen a)) with (blen a) by lia.
  pose proof (slice_app a r []) as S. rewrite !app_nil_r, blen_app in S. now rewrite S.
Qed.
Lemma loop_panics : forall f l a r n acc, l = a ++ r ->
  fold_loop f l (blen l - blen a) (blen a) n acc = Panic -> cut_panics l a n.
Proof.
  induction f as [|f IH]; intros l a r n acc E H; [easy|].
  destruct (le_lt_dec (octets r) 75) as [L|L]; [now rewrite (turn_last _ _ _ _ _ _ E L) in H|].
  rewrite (turn _ _ _ _ _ _ E L) in H. destruct (back_up l (np1 l n)) as [q|] eqn:B.
  - destruct (slice l (blen a) q) as [s|] eqn:S.
    + destruct (turn_slice _ _ _ _ _ E S) as (y & -> & ->).
      replace (blen l - blen a - (blen (a ++ s) - blen a)) with (blen l - blen (a ++ s)) in H by (rewrite blen_app; lia).
      apply (kp_later l a n s y); [easy|easy|apply cut_place_spec; now rewrite octets_blen|].
      rewrite octets_blen. eapply IH; [|exact H]. now rewrite <- app_assoc, E.
    + apply (kp_before l a n r q); [easy|easy|now apply cut_place_spec|]. rewrite octets_blen.
      destruct (le_lt_dec (blen a) q) as [Q|Q]; [|easy]. exfalso.
      destruct (slice_boundaries l (blen a) q) as [s S']; [apply boundary_spec; eauto|now apply back_up_boundary in B|easy|]. congruence.
  - apply (kp_none l a n r); [easy|easy|]. intros q C. apply cut_place_spec in C. congruence.
Qed.
Lemma loop_circles : forall f l a r acc, l = a ++ r -> blen r < f ->
  fold_loop f l (blen l - blen a) (blen a) (blen a + 74) acc = NoFuel -> cut_circles l a (octets a + 74).
Proof.
  induction f as [|f IH]; intros l a r acc E F H; [easy|].
  destruct (le_lt_dec (octets r) 75) as [L|L]; [now rewrite (turn_last _ _ _ _ _ _ E L) in H|].
  rewrite (turn _ _ _ _ _ _ E L) in H. destruct (back_up l (np1 l (blen a + 74))) as [q|] eqn:B; [|easy].
  destruct (slice l (blen a) q) as [s|] eqn:S; [|easy]. destruct (turn_slice _ _ _ _ _ E S) as (y & -> & ->).
  replace (blen l - blen a - (blen (a ++ s) - blen a)) with (blen l - blen (a ++ s)) in H by (rewrite blen_app; lia).
  assert (C : cut_place l (octets a + 74) (octets (a ++ s))) by (apply cut_place_spec; now rewrite !octets_blen).
  destruct s as [|c s].
  - rewrite app_nil_r in C. now apply (kc_here l a y).
  - apply (kc_later l a _ (c :: s) y); [easy|easy|easy|]. eapply IH; [| |exact H].
    + rewrite <- app_assoc. exact E.
    + rewrite blen_app in F. cbn [blen] in F. pose proof (utf8_len_bounds c). lia.
Qed.

Lemma loop_det : forall f l rem pos np acc, fold_loop f l rem pos np acc = Panic -> forall g s, fold_loop g l rem pos np acc = Ret s -> False.
Proof.
  induction f as [|f IH]; intros l rem pos np acc F g s G; [easy|].
  destruct g as [|g]; [easy|]. rewrite fold_loop_S in F, G. destruct (rem <=? LIMIT); [now destruct (slice _ _ _)|].
  destruct (back_up l (np1 l np)); [|easy]. destruct (slice l pos n); [|easy]. eapply IH; eauto.
Qed.
Lemma fold_panic : forall l, fold_line l = Panic <-> line_panics l.
Proof.
  intros l. unfold line_panics. split.
  - intros H. unfold fold_line in H. apply (loop_panics (blen l + 2) l [] l 75 []); [easy|]. cbn [blen].
    now replace (blen l - 0) with (blen l) by lia.
  - intros P. destruct (panics_loop _ _ _ P []) as [f F]. cbn [blen] in F. replace (blen l - 0) with (blen l) in F by lia.
    change 75 with LIMIT in F. destruct (fold_line l) as [s| |] eqn:Q; [|easy|now rewrite (fold_fuel_adequate l Q f) in F].
    exfalso. apply fold_exact in Q as (ps & last & C & _). destruct (cuts_loop _ _ _ _ _ C []) as [g G]. cbn [blen app] in G.
    replace (blen l - 0) with (blen l) in G by lia. change 75 with LIMIT in G. apply (loop_det _ _ _ _ _ _ F _ _ G).
Qed.
Lemma fold_circle : forall l, fold_line l = NoFuel <-> line_circles l.
Proof.
  intros l. unfold line_circles. split.
  - intros H. unfold fold_line in H. replace (blen l + 2) with (S (blen l + 1)) in H by lia.
    assert (E : l = [] ++ l) by easy. replace (blen l) with (blen l - blen []) in H at 2 by (cbn; lia). change 0 with (blen []) in H.
    destruct (le_lt_dec (octets l) 75) as [L|L]; [change (@nil N) with (@nil N) in H; rewrite (turn_last _ l [] l _ _ E L) in H; easy|].
    rewrite (turn _ l [] l _ _ E L) in H. destruct (back_up l (np1 l LIMIT)) as [q|] eqn:B; [|easy].
    destruct (slice l (blen []) q) as [s|] eqn:S; [|easy]. destruct (turn_slice _ _ _ _ _ E S) as (y & Y & ->). cbn [app] in *.
    apply (kc_later l [] 75 s y); [now rewrite Y at 1|now rewrite <- Y|apply cut_place_spec; cbn [app]; now rewrite octets_blen|]. cbn [app].
    apply (loop_circles (blen l + 1) l s y ([] ++ s ++ [CR; LF; SP])); [easy|rewrite Y, blen_app; lia|].
    now replace (blen l - blen s) with (blen l - blen [] - (blen s - blen [])) by (cbn [blen]; lia).
  - intros C. unfold fold_line. pose proof (circles_loop _ _ _ C (blen l + 2) []) as F. cbn [blen] in F.
    now replace (blen l - 0) with (blen l) in F by lia.
Qed.
Lemma circles_for_ever : forall l, line_circles l -> forall fuel, fold_loop fuel l (blen l) 0 LIMIT [] = NoFuel.
Proof. intros l C. apply fold_fuel_adequate. now apply fold_circle. Qed.
Lemma fold_return : forall l, (exists s, fold_line l = Ret s) <-> line_returns l.
Proof.
  intros l. unfold line_returns, cut_line. split.
  - intros [s H]. apply fold_exact in H as (ps & last & C & ->). eauto.
  - intros (s & ps & last & C & _). exists (join_fold ps last). apply fold_exact. eauto.
Qed.
Lemma three_ways : forall l, (line_returns l /\ ~ line_panics l /\ ~ line_circles l)
  \/ (~ line_returns l /\ line_panics l /\ ~ line_circles l) \/ (~ line_returns l /\ ~ line_panics l /\ line_circles l).
Proof.
  intros l. rewrite <- fold_return, <- fold_panic, <- fold_circle. destruct (fold_line l) as [s| |].
  - left. split; [eauto|split; easy].
  - right. left. split; [now intros []|split; easy].
  - right. right. split; [now intros []|split; easy].
Qed.

(** ** Sequences of lines *)

Definition kind {A} (o : outcome A) : outcome unit := match o with Ret _ => Ret tt | Panic => Panic | NoFuel => NoFuel end.
Definition thens (a b : outcome unit) : outcome unit := match a with Ret _ => b | x => x end.
Lemma kind_bind : forall A B (o : outcome A) (f : A -> outcome B) k, (forall a, o = Ret a -> kind (f a) = k) ->
  kind (obind o f) = thens (kind o) k.
Proof. intros A B [a| |] f k H; cbn; auto. Qed.
Lemma thens_assoc : forall a b c, thens (thens a b) c = thens a (thens b c).
Proof. now intros [] b c. Qed.
Lemma thens_ret : forall a, thens a (Ret tt) = a.
Proof. now intros [[]| |]. Qed.
Lemma kind_folded : forall l, kind (write_folded l) = kind (fold_line l).
Proof. intros l. unfold write_folded. now destruct (fold_line l). Qed.
Fixpoint kinds (ls : list str) : outcome unit := match ls with [] => Ret tt | l :: r => thens (kind (fold_line l)) (kinds r) end.
Lemma kinds_app : forall a b, kinds (a ++ b) = thens (kinds a) (kinds b).
Proof. induction a as [|l a IH]; intros b; [easy|]. cbn [kinds app]. now rewrite IH, thens_assoc. Qed.
Lemma kind_ret : forall A (o : outcome A), kind o = Ret tt <-> exists a, o = Ret a.
Proof. intros A [a| |]; cbn; split; try easy; [eauto|intros [b H]; easy|intros [b H]; easy]. Qed.
Lemma kind_panic : forall A (o : outcome A), kind o = Panic <-> o = Panic.
Proof. now intros A []. Qed.
Lemma kind_nofuel : forall A (o : outcome A), kind o = NoFuel <-> o = NoFuel.
Proof. now intros A []. Qed.

Section Lines.
  Context {A : Type} (line : A -> str -> Prop) (text : A -> str) (T : forall p l, line p l <-> l = text p).
  Lemma returns_line : forall p, (exists l, line p l /\ line_returns l) <-> exists s, fold_line (text p) = Ret s.
  Proof.
    intros p. split.
    - intros (l & L & R). apply T in L as ->. now apply fold_return.
    - intros R. exists (text p). split; [now apply T|now apply fold_return].
  Qed.
  Lemma kinds_ret : forall ps, kinds (map text ps) = Ret tt <-> all_return line ps.
  Proof.
    unfold all_return. induction ps as [|p ps IH]; cbn [map kinds].
    - split; [constructor|easy].
    - split.
      + intros H. destruct (fold_line (text p)) as [s| |] eqn:F; cbn [kind thens] in H; try easy.
        constructor; [apply returns_line; eauto|now apply IH].
      + intros H. inversion H as [|? ? H1 H2]; subst. apply returns_line in H1 as [s ->]. now apply IH.
  Qed.
  Lemma kinds_bad : forall (bad : str -> Prop) (o : outcome unit), (forall l, kind (fold_line l) = o <-> bad l) -> o <> Ret tt ->
    forall ps, kinds (map text ps) = o <-> first_bad line bad ps.
  Proof.
    intros bad o B N. unfold first_bad, all_return. induction ps as [|p ps IH]; cbn [map kinds].
    - split; [now intros <-|]. intros (a & p & b & l & E & _). now destruct a.
    - split.
      + intros H. destruct (fold_line (text p)) as [s| |] eqn:F; cbn [kind thens] in H.
        * apply IH in H as (a & q & b & l & -> & R & L & D). exists (p :: a), q, b, l. split; [easy|]. split; [|easy].
          constructor; [apply returns_line; eauto|easy].
        * exists [], p, ps, (text p). split; [easy|]. split; [constructor|]. split; [now apply T|]. apply B. now rewrite F.
        * exists [], p, ps, (text p). split; [easy|]. split; [constructor|]. split; [now apply T|]. apply B. now rewrite F.
      + intros ([|q a] & x & b & l & E & R & L & D).
        * injection E as <- <-. apply T in L as ->. apply B in D. destruct (fold_line (text p)) as [s| |]; cbn in D |- *; congruence.
        * injection E as <- ->. inversion R as [|? ? R1 R2]; subst. apply returns_line in R1 as [s ->]. cbn [kind thens].
          apply IH. exists a, x, b, l. auto.
  Qed.
  Lemma kinds_all : forall B (o : outcome B) ps, kind o = kinds (map text ps) ->
    ((exists s, o = Ret s) <-> all_return line ps)
    /\ (o = Panic <-> first_bad line line_panics ps)
    /\ (o = NoFuel <-> first_bad line line_circles ps).
  Proof.
    intros B o ps K. rewrite <- kind_ret, <- kind_panic, <- kind_nofuel, K. split; [apply kinds_ret|]. split; apply kinds_bad; try easy; intros l.
    - now rewrite kind_panic, fold_panic.
    - now rewrite kind_nofuel, fold_circle.
  Qed.
End Lines.

(** ** Components *)

Fixpoint order (i : inner) : list property :=
  match i with mk_inner ps ms cs => map snd ps ++ concat (map snd ms) ++ (fix go cs := match cs with [] => [] | (_, c) :: r => order c ++ go r end) cs end.
Lemma order_eq : forall ps ms cs, order (mk_inner ps ms cs) = map snd ps ++ concat (map snd ms) ++ flat_map (fun o => order (snd o)) cs.
Proof.
  intros ps ms cs. cbn [order]. do 2 f_equal. induction cs as [|[k c] cs IH]; [easy|]. cbn [flat_map snd]. now f_equal.
Qed.
Section Kinds.
  Context {U : Unicode}.
  Lemma props_kind : forall ps, kind (props_write ps) = kinds (map prop_line ps).
  Proof.
    induction ps as [|p ps IH]; [easy|]. cbn [props_write map kinds]. rewrite <- IH. unfold prop_write. rewrite <- kind_folded.
    apply kind_bind. intros a _. rewrite (kind_bind _ _ _ _ (Ret tt)) by easy. apply thens_ret.
  Qed.
  Lemma inner_kind : forall e i k n, kind (inner_write e k i n) = kinds (map prop_line (order i)).
  Proof.
    intros e. induction i as [ps ms cs IH] using inner_deep. intros k n. rewrite order_eq. cbn [inner_write].
    set (go := fix go (cs : list (str * inner)) (n : nat) : outcome (str * nat) :=
                match cs with
                | [] => Ret ([], n)
                | (k, c) :: r =>
                    obind (inner_write e k c n) (fun '(s, n') =>
                    obind (go r n') (fun '(t, n'') => Ret (s ++ t, n'')))
                end).
    assert (G : forall n, kind (go cs n) = kinds (map prop_line (flat_map (fun o => order (snd o)) cs))).
    { clear - IH. induction IH as [|[k c] cs Hc _ IH]; intros n; [easy|]. cbn [flat_map snd] in *. rewrite map_app, kinds_app, <- (Hc k n).
      change (go ((k, c) :: cs) n) with (obind (inner_write e k c n) (fun '(s, n') => obind (go cs n') (fun '(t, n'') => Ret (s ++ t, n'')))).
      apply kind_bind. intros [s m] _. rewrite <- (IH m). rewrite (kind_bind _ _ _ _ (Ret tt)); [apply thens_ret|]. now intros [] _. }
    destruct (match map_get (lit "DTSTAMP") ps with Some _ => _ | None => _ end) as [st n1]. rewrite !map_app, !kinds_app, <- (props_kind (map snd ps)), <- (props_kind (concat (map snd ms))).
    apply kind_bind. intros pt _. destruct (match map_get (lit "UID") ps with Some _ => _ | None => _ end) as [u n2].
    apply kind_bind. intros mt _. rewrite <- (G n2). rewrite (kind_bind _ _ _ _ (Ret tt)); [apply thens_ret|]. now intros [] _.
  Qed.
  Lemma cal_kind : forall e c, kind (cal_write e c) = kinds (map prop_line (c_props c ++ flat_map (fun x => order (cc_inner x)) (c_comps c))).
  Proof.
    intros e [ps cs]. cbn [c_props c_comps]. rewrite map_app, kinds_app, <- props_kind. apply kind_bind. intros pt _. cbn [c_comps].
    assert (G : forall n, kind (ccs_write e cs n) = kinds (map prop_line (flat_map (fun x => order (cc_inner x)) cs))).
    { clear. induction cs as [|c cs IH]; intros n; [easy|]. cbn [flat_map ccs_write]. rewrite map_app, kinds_app, <- (inner_kind e (cc_inner c) (cc_kind c) n).
      apply kind_bind. intros [s m] _. rewrite <- (IH m). rewrite (kind_bind _ _ _ _ (Ret tt)); [apply thens_ret|]. now intros [] _. }
    rewrite <- (G 0). rewrite (kind_bind _ _ _ _ (Ret tt)); [apply thens_ret|]. now intros [] _.
  Qed.
  Lemma pprops_kind : forall ps, kind (pprops_write ps) = kinds (map pprop_line ps).
  Proof.
    induction ps as [|p ps IH]; [easy|]. cbn [pprops_write map kinds]. rewrite <- IH. unfold pprop_write. rewrite <- kind_folded.
    apply kind_bind. intros a _. rewrite (kind_bind _ _ _ _ (Ret tt)) by easy. apply thens_ret.
  Qed.
  Fixpoint porder (c : pcomp) : list pprop :=
    match c with mk_pcomp _ ps cs => ps ++ (fix go cs := match cs with [] => [] | d :: r => porder d ++ go r end) cs end.
  Lemma porder_eq : forall k ps cs, porder (mk_pcomp k ps cs) = ps ++ flat_map porder cs.
  Proof. reflexivity. Qed.
  Lemma pcomp_kind : forall e c n, kind (pcomp_write e c n) = kinds (map pprop_line (porder c)).
  Proof.
    intros e c. induction c as [k ps cs IH] using pcomp_deep. intros n. rewrite porder_eq, pcomp_write_eq, map_app, kinds_app, <- pprops_kind.
    destruct (like_extra e k ps n) as [x n1]. apply kind_bind. intros pt _.
    assert (G : forall n, kind (pcomps_write e cs n) = kinds (map pprop_line (flat_map porder cs))).
    { clear - IH. induction IH as [|c cs Hc _ IH]; intros n; [easy|]. cbn [flat_map]. rewrite map_app, kinds_app, <- (Hc n).
      change (pcomps_write e (c :: cs) n) with (obind (pcomp_write e c n) (fun '(s, n') => obind (pcomps_write e cs n') (fun '(t, n'') => Ret (s ++ t, n'')))).
      apply kind_bind. intros [s m] _. rewrite <- (IH m). rewrite (kind_bind _ _ _ _ (Ret tt)); [apply thens_ret|]. now intros [] _. }
    rewrite <- (G n1). rewrite (kind_bind _ _ _ _ (Ret tt)); [apply thens_ret|]. now intros [] _.
  Qed.
End Kinds.

(** ** The order is the specified one *)

Lemma asc_unique : forall (A : Type) (f : A -> str) a b, ascending (map f a) -> ascending (map f b) -> (forall x, In x a <-> In x b) -> a = b.
Proof.
  intros A f. induction a as [|x a IH]; intros b Ha Hb E.
  - destruct b as [|y b]; [easy|]. now destruct (proj2 (E y) (or_introl eq_refl)).
  - destruct b as [|y b]; [now destruct (proj1 (E x) (or_introl eq_refl))|]. cbn [map ascending] in Ha, Hb. destruct Ha as [A1 A2], Hb as [B1 B2].
    rewrite Forall_forall in A1, B1.
    assert (X : x = y).
    { destruct (proj1 (E x) (or_introl eq_refl)) as [<-|I]; [easy|]. destruct (proj2 (E y) (or_introl eq_refl)) as [<-|J]; [easy|].
      pose proof (A1 _ (in_map f _ _ J)) as L1. pose proof (B1 _ (in_map f _ _ I)) as L2. exfalso.
      apply str_lt_cmp in L1, L2. rewrite str_cmp_antisym, L2 in L1. easy. }
    subst y. f_equal. apply (IH b A2 B2). intros z. split; intros I.
    + destruct (proj1 (E z) (or_intror I)) as [<-|J]; [|easy]. now apply A1, str_lt_irrefl in I || (exfalso; apply (str_lt_irrefl (f x)), A1, in_map, I).
    + destruct (proj2 (E z) (or_intror I)) as [<-|J]; [|easy]. exfalso. apply (str_lt_irrefl (f x)), B1, in_map, I.
Qed.
Lemma order_in : forall i, well_made i -> in_order i (order i).
Proof.
  induction i as [ps ms cs IH] using inner_deep. intros W. inversion W as [? [B1 B2 B3 B4] D]; subst.
  cbn [i_props i_multi i_comps] in *. rewrite order_eq, <- flat_map_concat_map, (flat_map_concat_map (fun o => order (snd o))).
  assert (K : map p_key (map snd ps) = map fst ps).
  { clear - B2. induction B2 as [|[k p] ps H _ IH]; [easy|]. cbn [map fst snd]. now rewrite IH, H. }
  constructor; cbn [i_props i_multi i_comps].
  - rewrite K. now apply ksorted_ascending.
  - intros p. split.
    + intros I. apply in_map_iff in I as ([k q] & <- & I). cbn [snd]. rewrite Forall_forall in B2. rewrite (B2 _ I). now apply ksorted_get.
    + intros H. apply map_get_in in H. apply in_map_iff. now exists (p_key p, p).
  - now apply ksorted_ascending.
  - intros key g. split; [now apply ksorted_get|apply map_get_in].
  - clear - IH D. induction IH as [|[k c] cs Hc _ IH]; [constructor|]. inversion D; subst. cbn [map snd] in *. constructor; [now apply Hc|now apply IH].
Qed.
Lemma order_one : forall i l, well_made i -> in_order i l -> l = order i.
Proof.
  induction i as [ps ms cs IH] using inner_deep. intros l W H. pose proof (order_in _ W) as H0. rewrite order_eq in H0 |- *.
  inversion W as [? _ D]; subst. inversion H as [? qs gs ls A1 A2 A3 A4 A5]; subst. cbn [i_props i_multi i_comps] in *.
  pose proof (order_in _ W) as O. rewrite order_eq in O. clear H0.
  assert (E1 : qs = map snd ps).
  { clear - W A1 A2. inversion W as [? [B1 B2 B3 B4] D]; subst. cbn [i_props i_multi i_comps] in *.
    apply (asc_unique _ p_key); [easy| |].
    - assert (K : map p_key (map snd ps) = map fst ps) by (clear - B2; induction B2 as [|[k p] ps H _ IH]; [easy|]; cbn [map fst snd]; now rewrite IH, H).
      rewrite K. now apply ksorted_ascending.
    - intros p. rewrite A2. split.
      + intros H. apply map_get_in in H. apply in_map_iff. now exists (p_key p, p).
      + intros I. apply in_map_iff in I as ([k q] & <- & I). cbn [snd]. rewrite Forall_forall in B2. rewrite (B2 _ I). now apply ksorted_get. }
  assert (E2 : gs = ms).
  { clear - W A3 A4. inversion W as [? [B1 B2 B3 B4] D]; subst. cbn [i_props i_multi i_comps] in *.
    apply (asc_unique _ fst); [easy|now apply ksorted_ascending|]. intros [k g]. rewrite A4. split; [apply map_get_in|now apply ksorted_get]. }
  subst qs gs. rewrite flat_map_concat_map. do 2 f_equal. clear - IH D A5. rewrite flat_map_concat_map. f_equal.
  induction A5 as [|[k c] l cs ls H _ IHl]; [easy|]. inversion IH; inversion D; subst. cbn [map snd] in *. f_equal; auto.
Qed.
Lemma cal_order_one : forall c ps, Forall (fun x => made (cc_inner x)) (c_comps c) ->
  (cal_in_order c ps <-> ps = c_props c ++ flat_map (fun x => order (cc_inner x)) (c_comps c)).
Proof.
  intros c ps M. unfold cal_in_order. rewrite flat_map_concat_map. split.
  - intros (ls & F & ->). do 2 f_equal. induction F as [|x l cs ls H _ IH]; [easy|]. inversion M; subst. cbn [map]. f_equal; [|auto].
    now apply order_one; [apply made_well|].
  - intros ->. exists (map (fun x => order (cc_inner x)) (c_comps c)). split; [|easy].
    induction M as [|x cs H _ IH]; constructor; [now apply order_in, made_well|easy].
Qed.
Lemma pin_order_one : forall c ps, pin_order c ps <-> ps = porder c.
Proof.
  intros c. induction c as [k qs cs IH] using pcomp_deep. intros ps. rewrite porder_eq, flat_map_concat_map. split.
  - intros H. inversion H as [? ? ? ls F]; subst. do 2 f_equal. clear H. revert ls F. induction IH as [|c cs Hc _ IHl]; intros ls F; inversion F; subst; [easy|].
    cbn [map]. f_equal; [now apply Hc|now apply IHl].
  - intros ->. constructor. induction IH as [|c cs Hc _ IHl]; constructor; [now apply Hc|easy].
Qed.

(** ** Outcomes *)

Section Outcomes.
  Context {U : Unicode}.
  Lemma line_is : forall p l, line_written p l <-> l = prop_line p.
  Proof.
    intros p l. split; [intros L; now apply (line_written_unique p l _ L), line_written_line|]. intros ->. apply line_written_line.
  Qed.
  Lemma prop_outcome : forall p l, line_written p l ->
    ((exists s, prop_write p = Ret s) <-> line_returns l) /\ (prop_write p = Panic <-> line_panics l) /\ (prop_write p = NoFuel <-> line_circles l).
  Proof.
    intros p l L. apply line_is in L as ->. unfold prop_write. rewrite <- fold_return, <- fold_panic, <- fold_circle. unfold write_folded.
    destruct (fold_line (prop_line p)) as [s| |]; cbn [obind]; (split; [|split]); split; try easy; intros []; eauto; easy.
  Qed.
  Lemma cal_outcome : forall e c ps, Forall (fun x => made (cc_inner x)) (c_comps c) -> cal_in_order c ps ->
    ((exists s, cal_write e c = Ret s) <-> all_return line_written ps)
    /\ (cal_write e c = Panic <-> first_bad line_written line_panics ps)
    /\ (cal_write e c = NoFuel <-> first_bad line_written line_circles ps).
  Proof. intros e c ps M O. apply cal_order_one in O as ->; [|easy]. apply (kinds_all _ prop_line line_is), cal_kind. Qed.
  Lemma inner_outcome : forall e k i n ps, made i -> in_order i ps ->
    ((exists r, inner_write e k i n = Ret r) <-> all_return line_written ps)
    /\ (inner_write e k i n = Panic <-> first_bad line_written line_panics ps)
    /\ (inner_write e k i n = NoFuel <-> first_bad line_written line_circles ps).
  Proof. intros e k i n ps M O. apply order_one in O as ->; [|now apply made_well]. apply (kinds_all _ prop_line line_is), inner_kind. Qed.
  Lemma pcal_outcome : forall e c ps, pin_order (mk_pcomp (lit "VCALENDAR") (pcal_props c) (pcal_comps c)) ps ->
    ((exists s, pcal_write e c = Ret s) <-> all_return pline_written ps)
    /\ (pcal_write e c = Panic <-> first_bad pline_written line_panics ps)
    /\ (pcal_write e c = NoFuel <-> first_bad pline_written line_circles ps).
  Proof.
    intros e c ps O. apply pin_order_one in O as ->. apply (kinds_all _ pprop_line pline_line). rewrite <- (pcomp_kind e _ 0).
    unfold pcal_write. rewrite (kind_bind _ _ _ _ (Ret tt)); [apply thens_ret|]. now intros [] _.
  Qed.
  Lemma orders : (forall i, made i -> exists ps, in_order i ps /\ forall qs, in_order i qs -> qs = ps)
    /\ (forall c, exists ps, pin_order c ps /\ forall qs, pin_order c qs -> qs = ps).
  Proof.
    split.
    - intros i M. apply made_well in M. exists (order i). split; [now apply order_in|]. intros qs. now apply order_one.
    - intros c. exists (porder c). split; [now apply pin_order_one|]. intros qs. apply pin_order_one.
  Qed.
  Lemma cal_orders : forall c, Forall (fun x => made (cc_inner x)) (c_comps c) -> exists ps, cal_in_order c ps /\ forall qs, cal_in_order c qs -> qs = ps.
  Proof. intros c M. eexists. split; [apply cal_order_one; [easy|reflexivity]|]. intros qs. now apply cal_order_one. Qed.
End Outcomes.
