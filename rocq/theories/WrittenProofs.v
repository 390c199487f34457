(** What is written. *)
From Coq Require Import ZifyBool ZifyNat ZifyN.
From Verif Require Import Str StrFacts Spec Fold Text ValueTypes Property Chrono DateTime Component Calendar Nom Parser
  SpecBuild SpecDate SpecTree SpecDoc SpecRound SpecText FoldProofs TextProofs DateProofs CalProofs TreeProofs RoundProofs MoreProofs.

Lemma text_written_escape : forall v, text_written v (escape_text v).
Proof.
  intros v. exists (map (fun c => wire_piece (esc_piece c)) v). split.
  - induction v as [|c v IH]; cbn [map]; constructor; [|exact IH]. unfold esc_piece.
    destruct (c =? LF)%N eqn:E1; [apply N.eqb_eq in E1 as ->; constructor|].
    destruct ((c =? BSL)%N || (c =? COMMA)%N || (c =? SEMI)%N) eqn:E2; cbn [wire_piece].
    + constructor. cbn. lia.
    + constructor. cbn. lia.
  - rewrite escape_wire. unfold wire. now rewrite flat_map_concat_map, map_map.
Qed.
Lemma char_written_unique : forall c a b, char_written c a -> char_written c b -> a = b.
Proof.
  intros c a b [d N|d I|] H; inversion H as [x N'|x I'|]; subst; try easy; exfalso.
  - apply N. cbn in *. tauto.
  - apply N. cbn. tauto.
  - apply N'. cbn in *. tauto.
  - cbn in I. repeat (destruct I as [I|I]; [discriminate I|]). easy.
  - apply N'. cbn. tauto.
  - cbn in I'. repeat (destruct I' as [I'|I']; [discriminate I'|]). easy.
Qed.
Lemma text_written_unique : forall v a b, text_written v a -> text_written v b -> a = b.
Proof.
  intros v a b (x & X & ->) (y & Y & ->). f_equal. revert y Y. induction X as [|c s v x H _ IH]; intros y Y; inversion Y; subst; [easy|].
  f_equal; [eapply char_written_unique; eassumption|now apply IH].
Qed.
Lemma param_written_text : forall q, param_written q (SEMI :: fst q ++ EQUALS :: quote_if_contains_colon (snd q)).
Proof.
  intros [k v]. cbn [fst snd]. unfold quote_if_contains_colon.
  destruct (existsb _ v) eqn:E.
  - constructor. apply existsb_exists in E as (c & I & E). apply orb_true_iff in E as [E|E]; apply N.eqb_eq in E as ->; tauto.
  - assert (N : forall c, In c v -> c <> COLON /\ c <> SEMI).
    { intros c I. assert (X := E). rewrite <- not_true_iff_false in X. split; intros ->; apply X; apply existsb_exists; eexists; (split; [exact I|]); easy. }
    constructor; intros I; now apply N in I.
Qed.
Lemma param_written_unique : forall q a b, param_written q a -> param_written q b -> a = b.
Proof. intros q a b [k v H1 H2|k v H]; intros X; inversion X; subst; try easy; tauto. Qed.
Lemma params_written : forall ps, exists ts, Forall2 param_written ps ts /\ params_text ps = concat ts.
Proof.
  intros ps. unfold params_text. eexists. split; [|reflexivity]. induction ps as [|q ps IH]; cbn [map]; constructor; [apply param_written_text|exact IH].
Qed.
Section Lines.
  Context {U : Unicode}.
  Lemma is_text_dec : forall p, is_text p \/ ~ is_text p.
  Proof. intros p. unfold is_text. destruct (prop_value_type p) as [[]|]; (now left) || now right. Qed.
  Lemma line_written_line : forall p, line_written p (prop_line p).
  Proof.
    intros p. destruct (params_written (p_params p)) as (ts & F & T). exists ts, (value_text p).
    split; [unfold prop_line; now rewrite T|]. split; [exact F|]. unfold is_text, value_text. split.
    - intros ->. apply text_written_escape.
    - destruct (prop_value_type p) as [[]|]; easy.
  Qed.
  Lemma line_written_unique : forall p a b, line_written p a -> line_written p b -> a = b.
  Proof.
    intros p a b (x & v & -> & X & V1 & V2) (y & w & -> & Y & W1 & W2). f_equal. f_equal.
    - f_equal. clear - X Y. revert y Y. induction X as [|q s v x H _ IH]; intros y Y; inversion Y; subst; [easy|].
      f_equal; [eapply param_written_unique; eassumption|now apply IH].
    - f_equal. destruct (is_text_dec p) as [T|T]; [eapply text_written_unique; eauto|]. now rewrite V2, W2.
  Qed.
  Lemma folded_fold : forall l s, fold_line l = Ret s -> folded l (s ++ crlf).
  Proof.
    intros l s H. apply fold_line_shape in H as (ps & last & -> & E & H1 & H2 & H3 & H4 & H5 & _).
    exists ps, last. split; [easy|]. split; [easy|]. now rewrite octets_blen.
  Qed.
  Lemma prop_written : forall p s, prop_write p = Ret s -> exists l, line_written p l /\ folded l s.
  Proof.
    intros p s W. unfold prop_write, write_folded in W. destruct (fold_line (prop_line p)) as [t| |] eqn:F; cbn [obind] in W; try easy.
    injection W as <-. exists (prop_line p). split; [apply line_written_line|now apply folded_fold].
  Qed.
  Lemma short_written : forall p l, line_written p l -> octets l <= 75 -> prop_write p = Ret (l ++ [CR; LF]).
  Proof.
    intros p l L H. rewrite (line_written_unique p l _ L (line_written_line p)) in *. unfold prop_write, write_folded.
    rewrite fold_short; [reflexivity|]. now rewrite <- octets_blen.
  Qed.
  Lemma tree_written : forall t s, text_of t s -> written t s.
  Proof.
    induction t as [k ps cs IH] using tree_deep. intros s T. inversion T as [? ? ts ? ss F G]; subst. constructor.
    - clear - F. induction F as [|p t ps ts H _ IH]; constructor; [now apply prop_written|exact IH].
    - clear - IH G. induction G as [|c s cs ss H _ IHG]; [constructor|]. inversion IH; subst. constructor; auto.
  Qed.
  Lemma calendar_written : forall e c s, Forall (fun x => made (cc_inner x)) (c_comps c) -> clock_ok e -> cal_write e c = Ret s ->
    exists ts, Forall2 (fun x t => arranged e (cc_kind x) (cc_inner x) t) (c_comps c) ts
      /\ written (Node (lit "VCALENDAR") (c_props c) ts) s.
  Proof.
    intros e c s M C W. rewrite cal_write_tree in W by easy. apply tree_write_spec, tree_written in W.
    eexists. split; [|exact W]. generalize 0. clear - M. induction M as [|x l H _ IH]; intros n; [constructor|].
    cbn [kinds map stamp_trees fst]. constructor; [|apply IH]. now apply stamp_tree_arranged, made_well.
  Qed.
  Lemma component_written : forall e kind i n s n', made i -> clock_ok e ->
    inner_write e kind i n = Ret (s, n') -> exists t, arranged e kind i t /\ written t s.
  Proof. intros e kind i n s n' M C W. destruct (component_text U e kind i n s n' M C W) as (t & A & T). exists t. split; [easy|now apply tree_written]. Qed.
End Lines.

(** ** Digits *)

Lemma digits_pad : forall w n, w <> 0 -> (n < 10 ^ N.of_nat w)%N -> digits w n (pad w n).
Proof. intros w n W H. split; [now apply pad_spec|now apply decimal_pad]. Qed.
Lemma plain_dec : forall n, plain_number n (dec n).
Proof.
  intros n. split; [apply decimal_dec|]. destruct (dec_spec n) as (NE & D & V & Lo & _).
  intros H. destruct (dec n) as [|c [|d r]] eqn:E; [easy|cbn in H; now subst|]. exfalso. cbn [hd] in H. subst c.
  specialize (Lo (length (d :: r))). cbn [length] in Lo. rewrite <- V in Lo.
  assert (dec_val (48%N :: d :: r) = dec_val (d :: r)) as Q by (apply (dec_val_zeros 1)).
  rewrite Q in Lo. assert (B : (dec_val (d :: r) < 10 ^ N.of_nat (length (d :: r)))%N).
  { apply dec_val_bound. cbn [forallb] in D |- *. lia. }
  cbn [length] in B. specialize (Lo ltac:(lia) B). lia.
Qed.
Lemma real_month_day : forall d, real_date d -> (month d < 100 /\ day d < 100)%N.
Proof.
  intros d (D1 & l & L & D2). inversion L as [y m I|y m I|y Y|y Y]; subst; cbn in *; try (intuition; lia); lia.
Qed.
Lemma date_written : forall d, real_date d -> four_digits d -> date_digits d (fmt_date d).
Proof.
  intros d R F. destruct (real_month_day d R) as [M D]. unfold four_digits in F.
  exists (pad 4 (Z.to_N (year d))), (pad 2 (month d)), (pad 2 (day d)).
  split; [unfold fmt_date, fmt_year; now replace ((0 <=? year d) && (year d <=? 9999))%Z with true by lia|].
  split; [apply digits_pad; [easy|change (10 ^ N.of_nat 4)%N with 10000%N; lia]|].
  split; apply digits_pad; easy.
Qed.
Lemma time_written : forall t, real_time t -> time_digits t (fmt_time t).
Proof.
  intros t (H & M & S & N). exists (pad 2 (hour t)), (pad 2 (minute t)), (pad 2 (shown_second t)).
  assert (E : (second t + nano t / 1000000000 = shown_second t)%N).
  { unfold shown_second. destruct (nano t <? 1000000000)%N eqn:Q.
    - rewrite N.div_small by lia. lia.
    - destruct N as [N|[N1 N2]]; [lia|]. assert (nano t / 1000000000 = 1)%N; [|lia].
      symmetry. apply (N.div_unique (nano t) 1000000000 1 (nano t - 1000000000)); lia. }
  split; [unfold fmt_time; now rewrite E|].
  assert (Z : (shown_second t < 100)%N) by (unfold shown_second; destruct (_ <? _)%N; lia).
  split; [|split]; apply digits_pad; try easy; change (10 ^ N.of_nat 2)%N with 100%N; lia.
Qed.
Lemma dt_written : forall d, real_dt d -> four_digits (date_of d) -> dt_digits d (format_naive_date_time d).
Proof.
  intros d [R T] F. exists (fmt_date (date_of d)), (fmt_time (time_of d)). split; [reflexivity|].
  split; [now apply date_written|now apply time_written].
Qed.
Lemma dpt_written : forall x k, real_dpt x -> four_digits (dpt_date x) ->
  p_key (dpt_to_property x k) = k /\ dpt_digits x (p_val (dpt_to_property x k)) (p_params (dpt_to_property x k)).
Proof.
  intros [[d|d|d z]|d] k R F; cbn in R, F; (split; [reflexivity|]); cbn [dpt_digits].
  - split; [now apply dt_written|reflexivity].
  - split; [|reflexivity]. exists (format_naive_date_time d). split; [reflexivity|now apply dt_written].
  - split; [now apply dt_written|reflexivity].
  - split; [now apply date_written|reflexivity].
Qed.

Lemma hex_written : forall w n, (n < 16 ^ N.of_nat w)%N -> hexadecimal (hex w n) n.
Proof.
  induction w as [|w IH]; intros n H; cbn [hex].
  - change (16 ^ N.of_nat 0)%N with 1%N in H. assert (n = 0)%N as -> by lia. constructor.
  - pose proof (N.div_mod n 16 ltac:(easy)) as D. pose proof (N.mod_lt n 16 ltac:(easy)) as L.
    rewrite D at 3. constructor.
    + apply IH. rewrite Nat2N.inj_succ, N.pow_succ_r' in H. apply N.div_lt_upper_bound; lia.
    + unfold hex_digit. destruct (n mod 16 <? 10)%N eqn:Q; lia.
Qed.
Lemma uuid_written : forall n, (n < 2 ^ 128)%N -> uuid_text n (fmt_uuid n).
Proof.
  intros n H. pose proof (hex_length 32 n) as L. pose proof (hex_written 32 n H) as X. unfold fmt_uuid.
  remember (hex 32 n) as h. clear - L X.
  do 33 (destruct h as [|? h]; [try discriminate L|]); [|discriminate L].
  cbn [firstn skipn]. unfold uuid_text. eexists _, _, _, _, _. split; [reflexivity|]. repeat (split; [reflexivity|]). exact X.
Qed.
