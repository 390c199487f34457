(** Exact conditions: proofs. *)
From Coq Require Import ZifyBool ZifyNat ZifyN.
From Verif Require Import Str Spec StrFacts ValueTypes Property Chrono DateTime Component Calendar Nom Parser SpecTree SpecBuild SpecDate SpecDoc SpecConv SpecMore
  SpecPrecise BuildProofs TreeProofs ConvProofs MoreProofs.

(** ** DTSTAMP and UID *)
Lemma count_key_all : forall k l, Forall (fun p => p_key p = lit k) l -> count_key k l = length l.
Proof.
  intros k l F. unfold count_key. induction F as [|p l E _ IH]; [easy|]. cbn [filter]. rewrite E, str_eqb_refl. cbn [length]. now rewrite IH.
Qed.
Lemma count_groups : forall k gs, ascending (map fst gs) -> Forall (fun g => Forall (fun p => p_key p = fst g) (snd g)) gs ->
  (forall g, In (lit k, g) gs -> count_key k (flat_map snd gs) = length g)
  /\ ((forall g, ~ In (lit k, g) gs) -> count_key k (flat_map snd gs) = 0).
Proof.
  intros k gs. generalize (eq_refl (lit k)). generalize (lit k) at 2 3 4. intros K EK. induction gs as [|[key g] gs IH]; intros A F; [easy|].
  cbn [map fst ascending] in A. destruct A as [A1 A2]. inversion F as [|? ? F1 F2]. subst x l. cbn [fst snd] in F1.
  destruct (IH A2 F2) as [I1 I2]. cbn [flat_map snd]. rewrite count_key_app.
  destruct (str_eq_dec key K) as [E|E].
  - assert (Z : count_key k (flat_map snd gs) = 0).
    { apply I2. intros g' I. rewrite Forall_forall in A1. specialize (A1 K (in_map fst _ _ I)). rewrite E in A1. now apply str_lt_irrefl in A1. }
    rewrite Z, Nat.add_0_r. rewrite E, <- EK in F1. rewrite (count_key_all _ _ F1). split.
    + intros g' [I|I]; [now injection I as -> ->|]. exfalso. rewrite Forall_forall in A1. specialize (A1 K (in_map fst _ _ I)). rewrite E in A1.
      now apply str_lt_irrefl in A1.
    + intros N. exfalso. apply (N g). left. now rewrite E.
  - assert (Z : count_key k g = 0).
    { apply count_key_0. intros p I J. rewrite Forall_forall in F1. specialize (F1 p I). congruence. }
    rewrite Z. cbn [Nat.add]. split.
    + intros g' [I|I]; [now injection I as -> _|]. now apply I1.
    + intros N. apply I2. intros g' I. apply (N g'). now right.
Qed.
Lemma arranged_counts : forall e t kind i, well_made i -> arranged e kind i t -> stamps_counted i t.
Proof.
  intros e. induction t as [k ps cs IH] using tree_deep. intros kind i W A.
  inversion A as [k' i' stamp qs u gs cs' A1 A2 A3 A4 A5 A6 A7]; subst.
  inversion W as [? [B1 B2 B3 B4] D]; subst.
  assert (F : Forall (fun g => Forall (fun p => p_key p = fst g) (snd g)) gs).
  { apply Forall_forall. intros [key g] I. apply A6 in I. apply map_get_in in I.
    rewrite Forall_forall in B4. specialize (B4 _ I). cbn in B4. apply B4. }
  assert (Z : forall key, count_key key (flat_map snd gs) = length (multis key i)).
  { intros key. destruct (count_groups key gs A5 F) as [Z1 Z2]. unfold multis. destruct (map_get (lit key) (i_multi i)) as [g|] eqn:E.
    - apply Z1. now apply A6.
    - apply Z2. intros g I. apply A6 in I. congruence. }
  assert (Q : forall key, count_key key qs = match map_get (lit key) (i_props i) with Some _ => 1 | None => 0 end).
  { intros key. destruct (map_get (lit key) (i_props i)) as [p|] eqn:E.
    - pose proof (map_get_in _ _ _ _ E) as I2. rewrite Forall_forall in B2. specialize (B2 _ I2). cbn in B2.
      apply (count_key_asc key qs p A2); [|easy]. apply A3. now rewrite B2.
    - apply count_key_0. intros p I E2. apply A3 in I. congruence. }
  constructor.
  - rewrite !count_key_app, Z, (Q "DTSTAMP"%string). rewrite !Nat.add_assoc. f_equal.
    destruct (map_get (lit "DTSTAMP") (i_props i)).
    + subst stamp. destruct (map_get (lit "UID") (i_props i)); [now subst u|]. destruct A4 as [m ->]. easy.
    + destruct A1 as [m ->]. destruct (map_get (lit "UID") (i_props i)); [now subst u|]. destruct A4 as [m' ->]. easy.
  - rewrite !count_key_app, Z, (Q "UID"%string). rewrite !Nat.add_assoc. f_equal.
    destruct (map_get (lit "DTSTAMP") (i_props i)).
    + subst stamp. destruct (map_get (lit "UID") (i_props i)); [now subst u|]. destruct A4 as [m ->]. easy.
    + destruct A1 as [m ->]. destruct (map_get (lit "UID") (i_props i)); [now subst u|]. destruct A4 as [m' ->]. easy.
  - clear - IH A7 D. revert IH D. induction A7 as [|o t l ts H _ IH2]; intros IH D; [constructor|].
    inversion IH; inversion D; subst. constructor; [|now apply IH2].
    match goal with K : forall kind i, _ |- _ => eapply K; eauto end.
Qed.
Lemma counted_once : forall t i, well_made i -> stamps_counted i t -> (stamped_once t <-> no_multi_stamp i).
Proof.
  induction t as [k ps cs IH] using tree_deep. intros i W C. inversion C as [? ? ? ? C1 C2 C3]; subst. inversion W as [? [B1 B2 B3 B4] D]; subst.
  assert (Z : forall key, length (multis key i) = 0 <-> map_get (lit key) (i_multi i) = None).
  { intros key. unfold multis. destruct (map_get (lit key) (i_multi i)) as [g|] eqn:E; [|easy].
    apply map_get_in in E. rewrite Forall_forall in B4. specialize (B4 _ E). cbn in B4. destruct B4 as [B4 _]. destruct g; [easy|]. easy. }
  assert (S : Forall stamped_once cs <-> Forall (fun o => no_multi_stamp (snd o)) (i_comps i)).
  { clear - IH C3 D. revert IH D. induction C3 as [|o t l ts H _ IH2]; intros IH D; [split; constructor|].
    inversion IH as [|? ? I1 I2]; inversion D as [|? ? D1 D2]; subst. specialize (IH2 I2 D2). specialize (I1 _ D1 H).
    split; intros F; inversion F; subst; constructor; tauto. }
  split; intros H; inversion H; subst; constructor; try (apply S; assumption); try (apply Z; lia).
  - rewrite C1. replace (length (multis "DTSTAMP" i)) with 0; [easy|]. symmetry. now apply Z.
  - rewrite C2. replace (length (multis "UID" i)) with 0; [easy|]. symmetry. now apply Z.
Qed.

(** ** Dates of parsed properties *)
Lemma found_last : forall q k, match find (fun a => str_eqb (pp_key a) k) (rev (pr_params q)) with
  | Some a => last_of pp_key k (pr_params q) a | None => Forall (fun a => pp_key a <> k) (pr_params q) end.
Proof.
  intros q k. destruct (find _ _) as [a|] eqn:E.
  - apply find_first_of in E as (x & y & E & K & F). exists (rev y), (rev x). split; [|split; [easy|now apply Forall_rev]].
    apply (f_equal (@rev _)) in E. rewrite rev_involutive, rev_app_distr in E. cbn [rev] in E. now rewrite <- app_assoc in E.
  - apply find_none_of in E. apply Forall_rev in E. now rewrite rev_involutive in E.
Qed.
Lemma last_one : forall A (key : A -> str) k l x y, last_of key k l x -> last_of key k l y -> x = y.
Proof.
  intros A key k l x y (a & b & E & K & F) (a' & b' & E' & K' & F'). rewrite E in E'. clear E l.
  revert a' E'. induction a as [|z a IH]; intros [|w a'] E'; cbn [app] in E'; injection E' as E1 E2.
  - easy.
  - exfalso. rewrite E2 in F. apply Forall_app in F as [_ F]. inversion F. congruence.
  - exfalso. rewrite <- E2 in F'. apply Forall_app in F' as [_ F']. inversion F'. congruence.
  - now apply (IH a').
Qed.
Lemma first_one : forall A (key : A -> str) k l x y, first_of key k l x -> first_of key k l y -> x = y.
Proof.
  intros A key k l x y (a & b & -> & K & F) (a' & b' & E' & K' & F').
  revert a' E' F'. induction F as [|z a N F IH]; intros [|w a'] E' F'; cbn [app] in E'; injection E' as E1 E2.
  - easy.
  - exfalso. inversion F'. congruence.
  - exfalso. congruence.
  - apply (IH a' E2). now inversion F'.
Qed.
Lemma vt_date : forall s, vt_from_str s = Some Date <-> s = lit "DATE".
Proof.
  intros s. split; [|intros ->; reflexivity]. unfold vt_from_str. intros H. apply assoc_lit_in in H as (n & I & ->).
  cbn [In] in I. repeat (destruct I as [I|I]; [try discriminate I; now injection I as <-|]). destruct I.
Qed.
Lemma by_name_not_date : forall {U : Unicode} k, by_name k <> Some Date.
Proof.
  intros U k H. apply by_name_rfc in H as (n & I & _). cbn [rfc_default_types In] in I. repeat (destruct I as [I|I]; [discriminate I|]). destruct I.
Qed.
Lemma type_date : forall {U : Unicode} q, prop_value_type (conv_prop q) = Some Date <-> says_date q.
Proof.
  intros U q. unfold prop_value_type, says_date. rewrite says_get. pose proof (found_last q (lit "VALUE")) as L.
  destruct (find _ _) as [a|]; cbn [option_map].
  - destruct (pp_val a) as [w|] eqn:V.
    + destruct (vt_from_str w) as [t|] eqn:T.
      * split; [intros [= ->]; exists a; split; [easy|]; rewrite V; f_equal; now apply vt_date|].
        intros (b & B & W). rewrite (last_one _ _ _ _ _ _ L B) in V. rewrite V in W. injection W as ->. now rewrite <- T.
      * split; [intros H; now apply by_name_not_date in H|]. intros (b & B & W). rewrite (last_one _ _ _ _ _ _ L B) in V. rewrite V in W.
        injection W as ->. discriminate T.
    + replace (vt_from_str []) with (@None value_type) by reflexivity. split; [intros H; now apply by_name_not_date in H|].
      intros (b & B & W). rewrite (last_one _ _ _ _ _ _ L B) in V. congruence.
  - split; [intros H; now apply by_name_not_date in H|]. intros (b & (x & y & E & K & _) & _). rewrite E in L. apply Forall_app in L as [_ L]. now inversion L.
Qed.
Lemma no_first : forall A (key : A -> str) k l x, Forall (fun a => key a <> k) l -> ~ first_of key k l x.
Proof. intros A key k l x F (a & b & -> & K & _). apply Forall_app in F as [_ F]. now inversion F. Qed.
Lemma no_last : forall A (key : A -> str) k l x, Forall (fun a => key a <> k) l -> ~ last_of key k l x.
Proof. intros A key k l x F (a & b & -> & K & _). apply Forall_app in F as [_ F]. now inversion F. Qed.
(** Both readers as functions of what the text is. *)
Lemma dates_agree : forall {U : Unicode} q, dpt_from_property (conv_prop q) = dpt_try_from q <->
  (parse_date (pr_val q) <> None -> says_date q)
  /\ (parse_dt_z (pr_val q) <> None -> ~ says_date q /\ no_tzid q)
  /\ (parse_dt (pr_val q) <> None -> (says_date q /\ bare_tzid q) \/ (~ says_date q /\ (no_tzid q \/ one_tzid q))).
Proof.
  intros U q. destruct (parse_exclusive (pr_val q)) as [X1 X2].
  assert (T : dpt_from_property (conv_prop q) =
    match prop_value_type (conv_prop q) with Some Date => option_map DDate (parse_date (pr_val q))
    | _ => option_map DT (match find (fun a => str_eqb (pp_key a) (lit "TZID")) (rev (pr_params q)) with
        | Some b => option_map (fun d => WithTimezone d (said b)) (parse_dt (pr_val q))
        | None => match parse_dt (pr_val q) with Some d => Some (Floating d) | None => option_map Utc (parse_dt_z (pr_val q)) end end) end).
  { unfold dpt_from_property, cal_dt_from_property. rewrite says_get. change (p_val (conv_prop q)) with (pr_val q).
    assert (C : match option_map (fun a => match pp_val a with Some w => w | None => [] end) (find (fun a => str_eqb (pp_key a) (lit "TZID")) (rev (pr_params q))) with
      | Some tzid => option_map (fun d => WithTimezone d tzid) (parse_dt (pr_val q))
      | None => match parse_dt (pr_val q) with Some d => Some (Floating d) | None => cal_dt_from_str (pr_val q) end end
      = match find (fun a => str_eqb (pp_key a) (lit "TZID")) (rev (pr_params q)) with
        | Some b => option_map (fun d => WithTimezone d (said b)) (parse_dt (pr_val q))
        | None => match parse_dt (pr_val q) with Some d => Some (Floating d) | None => option_map Utc (parse_dt_z (pr_val q)) end end).
    { destruct (find _ (rev _)); [easy|]. cbn [option_map]. destruct (parse_dt (pr_val q)) eqn:E; [easy|].
      unfold cal_dt_from_str, parse_utc_date_time, parse_naive_date_time. rewrite E. now destruct (parse_dt_z (pr_val q)). }
    rewrite C. reflexivity. }
  rewrite T. clear T. pose proof (found_last q (lit "TZID")) as L. pose proof (@type_date U q) as D.
  unfold dpt_try_from.
  assert (DS : (prop_value_type (conv_prop q) = Some Date /\ says_date q) \/ (prop_value_type (conv_prop q) <> Some Date /\ ~ says_date q)).
  { destruct (prop_value_type (conv_prop q)) as [[]|] eqn:E; try (right; rewrite <- D; split; discriminate). left. split; [easy|]. now apply D. }
  assert (NN : forall A (x : A) (P : Prop), (Some x <> None -> P) <-> P) by (intros A x P; split; [intros H; now apply H|easy]).
  assert (NO : forall A (P : Prop), (@None A <> None -> P) <-> True) by (intros A P; split; [easy|intros _ H; now destruct H]).
  destruct (parse_date (pr_val q)) as [d|] eqn:PD.
  { destruct (X1 d eq_refl) as [-> ->]. rewrite NN, !NO. cbn [option_map].
    destruct DS as [[-> S]|[NE S]]; [easy|]. split; [|tauto]. intros H. exfalso.
    destruct (find _ (rev _)); destruct (prop_value_type (conv_prop q)) as [[]|]; try discriminate H; now destruct NE. }
  destruct (parse_dt (pr_val q)) as [d|] eqn:PT.
  { destruct (X2 d eq_refl) as [-> _]. rewrite NN, !NO.
    destruct DS as [[-> S]|[NE S]]; cbn [option_map].
    - destruct (find _ (pr_params q)) as [a|] eqn:F.
      + apply find_first_of in F. destruct (pp_val a) as [w|] eqn:V.
        * split; [easy|]. intros (_ & _ & [[_ (b & B & N)]|[N _]]); [|easy]. rewrite (first_one _ _ _ _ _ _ F B) in V. congruence.
        * split; [|easy]. intros _. split; [easy|]. split; [easy|]. left. split; [easy|]. now exists a.
      + apply find_none_of in F. split; [easy|]. intros (_ & _ & [[_ (b & B & N)]|[N _]]); [|easy]. now apply (no_first _ _ _ _ _ F) in B.
    - assert (RW : forall o o' : option dpt, (match prop_value_type (conv_prop q) with Some Date => o | _ => o' end) = o').
      { intros o o'. destruct (prop_value_type (conv_prop q)) as [[]|]; try easy; now destruct NE. }
      rewrite RW. clear RW.
      destruct (find _ (pr_params q)) as [a|] eqn:F.
      + apply find_first_of in F. destruct (find _ (rev _)) as [b|].
        2:{ exfalso. now apply (no_first _ _ _ _ _ L) in F. }
        cbn [option_map]. destruct (pp_val a) as [w|] eqn:V.
        * split.
          -- intros [= E]. split; [easy|]. split; [easy|]. right. split; [easy|]. right. exists a, b, w. now rewrite E.
          -- intros (_ & _ & [[N _]|[_ [N|(a' & b' & w' & F' & L' & V' & E')]]]); [easy|now apply (no_first _ _ _ _ _ N) in F|].
             rewrite <- (first_one _ _ _ _ _ _ F F') in V'. rewrite <- (last_one _ _ _ _ _ _ L L') in E'. congruence.
        * split; [easy|]. intros (_ & _ & [[N _]|[_ [N|(a' & b' & w' & F' & L' & V' & E')]]]); [easy|now apply (no_first _ _ _ _ _ N) in F|].
          rewrite <- (first_one _ _ _ _ _ _ F F') in V'. congruence.
      + apply find_none_of in F. destruct (find _ (rev _)) as [b|]; [now apply (no_last _ _ _ _ _ F) in L|]. cbn [option_map].
        split; [|easy]. intros _. split; [easy|]. split; [easy|]. right. split; [easy|]. now left. }
  rewrite !NO. destruct (parse_dt_z (pr_val q)) as [d|] eqn:PZ.
  - rewrite NN. destruct DS as [[-> S]|[NE S]]; cbn [option_map]; [easy|].
    assert (RW : forall o o' : option dpt, (match prop_value_type (conv_prop q) with Some Date => o | _ => o' end) = o').
    { intros o o'. destruct (prop_value_type (conv_prop q)) as [[]|]; try easy; now destruct NE. }
    rewrite RW. clear RW. destruct (find _ (rev _)) as [b|]; cbn [option_map].
    + split; [easy|]. intros (_ & [_ N] & _). now apply (no_last _ _ _ _ _ N) in L.
    + easy.
  - rewrite !NO. split; [easy|]. intros _. destruct (prop_value_type (conv_prop q)) as [[]|], (find _ (rev _)); reflexivity.
Qed.

(** ** Properties of parsed components *)
Lemma find_prop_exact : forall c n, property_value (conv_inner c) n = option_map pr_val (find_prop c n) <->
  Forall (fun p => pr_name p <> n) (pc_props c)
  \/ (~ multi_name n /\ exists p q, first_of pr_name n (pc_props c) p /\ last_of pr_name n (pc_props c) q /\ pr_val p = pr_val q).
Proof.
  intros [m ps cs] n. pose proof (conv_inner_keeps (mk_pcomp m ps cs)) as K. inversion K as [? ? ? i K1 K2 K3]. subst.
  pose proof (find_prop_spec (mk_pcomp m ps cs) n) as F. cbn [pc_props] in F |- *. unfold property_value.
  assert (MD : multi_name n \/ ~ multi_name n).
  { destruct (in_dec str_eq_dec n (map lit multi_names)) as [I|I].
    - left. apply in_map_iff in I as (x & E & I). now exists x.
    - right. intros (x & I2 & ->). apply I. now apply in_map. }
  destruct MD as [M|M].
  - specialize (K2 n M) as [_ ->]. destruct (find_prop _ n) as [p|]; cbn [option_map].
    + split; [easy|]. intros [A|[A _]]; [|easy]. now apply (no_first _ _ _ _ _ A) in F.
    + split; [|easy]. intros _. now left.
  - specialize (K1 n M) as [K1 _]. destruct (map_get n (i_props (conv_inner (mk_pcomp m ps cs)))) as [p|].
    + destruct K1 as (q & L & S). destruct (find_prop _ n) as [q'|]; cbn [option_map].
      * destruct S as (_ & S & _). rewrite S. split.
        -- intros [= E]. right. split; [easy|]. exists q', q. now rewrite E.
        -- intros [A|(_ & x & y & X & Y & E)]; [now apply (no_first _ _ _ _ _ A) in F|].
           rewrite (first_one _ _ _ _ _ _ F X), (last_one _ _ _ _ _ _ L Y). now rewrite E.
      * exfalso. now apply (no_last _ _ _ _ _ F) in L.
    + destruct (find_prop _ n) as [q'|]; [now apply (no_first _ _ _ _ _ K1) in F|]. split; [|easy]. intros _. now left.
Qed.
