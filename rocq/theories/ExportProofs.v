(** Importing a calendar of the grammar of RFC 5545 and exporting it again: proofs. *)
From Coq Require Import ZifyBool ZifyNat ZifyN.
From Verif Require Import Str StrFacts Spec Fold Text ValueTypes Property Chrono DateTime Component Calendar Nom Parser
  SpecBuild SpecDate SpecTree SpecDoc SpecRound SpecText SpecMore SpecItems SpecConv SpecRfc SpecImport SpecExport
  ValueProofs TreeProofs ConvProofs ExactProofs SettleProofs CalProofs RfcProofs ImportProofs.

(** ** Parameters *)

Lemma joined_one : forall vs ws, vs <> [] -> ws <> [] -> Forall (fun x => ~ In COMMA x) vs -> Forall (fun x => ~ In COMMA x) ws ->
  joined vs = joined ws -> vs = ws.
Proof.
  assert (C : forall (x y r s : str), ~ In COMMA x -> ~ In COMMA y -> x ++ COMMA :: r = y ++ COMMA :: s -> x = y /\ r = s).
  { induction x as [|c x IH]; intros [|d y] r s X Y E; cbn [app] in E.
    - now injection E as ->.
    - injection E as <- _. now destruct Y; left.
    - injection E as -> _. now destruct X; left.
    - injection E as -> E. destruct (IH y r s) as [-> ->]; [intros I; apply X; now right|intros I; apply Y; now right|exact E|easy]. }
  induction vs as [|v vs IH]; [easy|]. intros [|w ws] _ N F G E; [easy|]. inversion F as [|? ? F1 F2]; subst. inversion G as [|? ? G1 G2]; subst.
  destruct vs as [|v' vs], ws as [|w' ws].
  - cbn [joined map concat] in E. rewrite !app_nil_r in E. now subst.
  - exfalso. rewrite (joined_cons w) in E by easy. cbn [joined map concat] in E. rewrite app_nil_r in E. apply F1. rewrite E. apply in_or_app. right. now left.
  - exfalso. rewrite (joined_cons v) in E by easy. cbn [joined map concat] in E. rewrite app_nil_r in E. apply G1. rewrite <- E. apply in_or_app. right. now left.
  - rewrite !joined_cons in E by easy. apply C in E as [-> E]; [|exact F1|exact G1]. f_equal. now apply IH.
Qed.
Lemma pvalue_joined : forall v ws, pvalue_says v ws -> ws <> [] /\ joined ws = v.
Proof.
  intros v ws [A B]. destruct (in_dec N.eq_dec 58%N v) as [I|I]; [|destruct (in_dec N.eq_dec 59%N v) as [J|J]].
  - rewrite A by tauto. split; [easy|]. cbn [joined map concat]. apply app_nil_r.
  - rewrite A by tauto. split; [easy|]. cbn [joined map concat]. apply app_nil_r.
  - destruct (B I J) as (_ & x & r & -> & ->). now split.
Qed.
Lemma pvalues_unquoted : forall vs t, rfc_pvalues vs t -> ~ In DQ t -> Forall (Forall safe_char) vs.
Proof.
  induction 1 as [v t P|v t vs ts P _ IH]; intros N.
  - constructor; [|constructor]. now apply (pvalue_unquoted v t).
  - constructor; [|apply IH; intros I; apply N, in_or_app; right; now right]. apply (pvalue_unquoted v t P). intros I. apply N, in_or_app. now left.
Qed.
Lemma value_regrouped : forall vs t ws, rfc_pvalues vs t -> ~ In DQ t \/ (exists v, v <> [] /\ vs = [v]) -> pvalue_says (joined vs) ws -> regrouped vs ws.
Proof.
  intros vs t ws P H S. pose proof (pvalue_joined _ _ S) as [N J]. split; [exact J|]. destruct H as [H|(v & _ & ->)].
  - pose proof (pvalues_unquoted _ _ P H) as F. pose proof (pvalues_plain _ _ P H) as (E & S1 & S2). rewrite E in S1, S2.
    assert (C : Forall (fun x => ~ In COMMA x) vs).
    { rewrite Forall_forall in F |- *. intros x I Q. specialize (F x I). rewrite Forall_forall in F. apply F in Q as (_ & Q & _). now apply Q. }
    destruct S as [_ S]. destruct (S S2 S1) as (G & _). split; [|intros _; symmetry; apply joined_one; try easy; now apply pvalues_ne in P].
    intros _ (v & -> & I & _). inversion C as [|? ? C1 _]; subst. now apply C1.
  - assert (V : joined [v] = v) by (cbn [joined map concat]; apply app_nil_r). rewrite V in *. destruct S as [S1 S2].
    split.
    + intros -> (w & E & I & A & B). injection E as <-. destruct (S2 A B) as (G & _). inversion G as [|? ? G1 _]; subst. now apply G1.
    + intros M. destruct (in_dec N.eq_dec 58%N v) as [I|I]; [apply S1; now left|]. destruct (in_dec N.eq_dec 59%N v) as [K|K]; [apply S1; now right|].
      destruct (S2 I K) as (G & _). apply joined_one; [easy|easy|exact G| |now rewrite J]. constructor; [|constructor]. intros C. apply M. now exists v.
Qed.
Lemma kept_values : forall ps ts, kept_params ps ts -> Forall (fun q => forall ws, pvalue_says (joined (snd q)) ws -> regrouped (snd q) ws) ps.
Proof. induction 1 as [|k vs t ps ts P H _ IH]; constructor; [|exact IH]. intros ws S. cbn [snd] in *. eapply value_regrouped; eassumption. Qed.
Lemma pvalues_chars : forall vs t, rfc_pvalues vs t -> Forall quoted_char (joined vs).
Proof.
  assert (Q : forall v t, rfc_pvalue v t -> Forall quoted_char v).
  { intros v t P. destruct P as [v F|v F]; [|exact F]. eapply Forall_impl; [|exact F]. now intros c [H _]. }
  induction 1 as [v t P|v t vs ts P R IH].
  - cbn [joined map concat]. rewrite app_nil_r. now apply (Q v t).
  - rewrite joined_cons by now apply pvalues_ne in R. apply Forall_app. split; [now apply (Q v t)|]. constructor; [|exact IH]. split; vm_compute; intuition discriminate.
Qed.
Lemma params_chars : forall ps ts, rfc_params ps ts -> Forall (fun q => token (fst q) /\ Forall quoted_char (joined (snd q))) ps.
Proof. induction 1 as [|k vs t ps ts K P _ IH]; constructor; [|exact IH]. split; [exact K|]. now apply pvalues_chars in P. Qed.

Lemma said_params : forall r q, Forall2 param_said (rl_params r) (pr_params q) -> NoDup (map (fun q => map ascii_upper (fst q)) (rl_params r)) ->
  NoDup (map fst (rl_params r)) /\ Forall2 (fun a b => fst b = fst a /\ snd b = joined (snd a)) (rl_params r) (p_params (conv_prop q))
  /\ length (filter (fun a => str_eqb (pp_key a) (lit "VALUE")) (pr_params q)) <= 1.
Proof.
  intros r q F N. assert (M : NoDup (map fst (rl_params r))).
  { clear F. induction (rl_params r) as [|[k vs] l IH]; [constructor|]. cbn [map fst] in *. inversion N as [|? ? N1 N2]; subst. constructor; [|now apply IH].
    intros I. apply N1. apply in_map_iff in I as ((k' & w) & E & I). cbn [fst] in E. subst k'. apply in_map_iff. now exists (k, w). }
  split; [exact M|].
  assert (K : map fst (map conv_param (pr_params q)) = map fst (rl_params r)).
  { clear - F. induction F as [|a b l m [H _] _ IH]; [reflexivity|]. cbn [map conv_param fst]. now rewrite H, IH. }
  assert (C : p_params (conv_prop q) = map conv_param (pr_params q)).
  { unfold conv_prop. cbn [p_params]. rewrite hm_fold_fresh; [reflexivity|]. cbn [app]. now rewrite K. }
  rewrite C. split.
  - clear - F. induction F as [|a b l m [H G] _ IH]; [constructor|]. constructor; [|exact IH]. unfold conv_param. cbn [fst snd]. split; [exact H|].
    destruct G as [->|[E ->]]; [reflexivity|now rewrite E].
  - rewrite <- K in M. clear - M. induction (pr_params q) as [|a l IH]; [cbn; lia|]. cbn [map conv_param fst] in M. inversion M as [|? ? M1 M2]; subst. cbn [filter].
    destruct (str_eqb (pp_key a) (lit "VALUE")) eqn:E; [|now apply IH]. apply str_eqb_eq in E. cbn [length].
    assert (filter (fun a => str_eqb (pp_key a) (lit "VALUE")) l = []) as ->; [|cbn; lia].
    clear IH M2 M. induction l as [|b l IH]; [reflexivity|]. cbn [map conv_param fst In] in M1. cbn [filter]. destruct (str_eqb (pp_key b) (lit "VALUE")) eqn:G; [|apply IH; intros I; apply M1; now right].
    apply str_eqb_eq in G. exfalso. apply M1. left. cbn [fst]. now rewrite E, G.
Qed.

(** ** Values *)

(** The characters and escapes of a text. *)
Definition fine (p : piece) : Prop :=
  match p with Plain c => ~ control c /\ ~ In c [92%N; 59%N; 44%N] | Escaped c => In c [BSL; SEMI; COMMA; 78%N; 110%N] end.
Lemma fine_rfc : forall ps, Forall fine ps -> Forall rfc_piece ps.
Proof. intros ps F. eapply Forall_impl; [|exact F]. intros [c|c] H; [|exact H]. destruct H as [_ H]. intros ->. apply H. now left. Qed.
Lemma text_pieces : forall v w, rfc_text v w -> exists ps, Forall fine ps /\ w = wire ps /\ v = decoded ps.
Proof.
  induction 1 as [|c t w N I _ (ps & P & -> & ->)|c t w I _ (ps & P & -> & ->)|c t w I _ (ps & P & -> & ->)].
  - exists []. repeat split; constructor.
  - exists (Plain c :: ps). repeat split. constructor; [|exact P]. now split.
  - exists (Escaped c :: ps). split; [constructor; [|exact P]; vm_compute in I |- *; tauto|]. split; [reflexivity|].
    unfold decoded. cbn [map decoded_piece]. f_equal. vm_compute in I. destruct I as [<-|[<-|[<-|[]]]]; reflexivity.
  - exists (Escaped c :: ps). split; [constructor; [|exact P]; vm_compute in I |- *; tauto|]. split; [reflexivity|].
    unfold decoded. cbn [map decoded_piece]. f_equal. vm_compute in I. destruct I as [<-|[<-|[]]]; reflexivity.
Qed.
Lemma pieces_text : forall ps, Forall fine ps -> rfc_text (decoded ps) (wire ps).
Proof.
  induction 1 as [|[c|c] ps P _ IH]; [constructor| |]; unfold decoded, wire in *; cbn [map flat_map wire_piece app decoded_piece fine] in *.
  - constructor; [easy|easy|exact IH].
  - destruct ((c =? 78)%N || (c =? 110)%N) eqn:G; constructor; try exact IH; vm_compute in P |- *.
    + assert (c = 78%N \/ c = 110%N) by lia. intuition.
    + assert (c <> 78%N /\ c <> 110%N) by lia. intuition.
Qed.
Lemma same_fine : forall p q, fine p -> fine q -> decoded_piece p = decoded_piece q -> same_piece p q.
Proof.
  intros [c|c] [d|d] P Q E; cbn [decoded_piece fine] in *.
  - subst d. constructor.
  - exfalso. destruct P as [P1 P2]. destruct ((d =? 78)%N || (d =? 110)%N) eqn:G.
    + subst c. apply P1. vm_compute. intuition discriminate.
    + subst d. apply P2. vm_compute in Q |- *. assert (c <> 78%N /\ c <> 110%N) by lia. intuition.
  - exfalso. destruct Q as [P1 P2]. destruct ((c =? 78)%N || (c =? 110)%N) eqn:G.
    + subst d. apply P1. vm_compute. intuition discriminate.
    + subst d. apply P2. vm_compute in P |- *. assert (c <> 78%N /\ c <> 110%N) by lia. intuition.
  - destruct ((c =? 78)%N || (c =? 110)%N) eqn:G, ((d =? 78)%N || (d =? 110)%N) eqn:H.
    + apply sp_break; [assert (c = 78%N \/ c = 110%N) by lia|assert (d = 78%N \/ d = 110%N) by lia]; vm_compute; intuition.
    + subst d. exfalso. vm_compute in Q. intuition discriminate.
    + subst c. exfalso. vm_compute in P. intuition discriminate.
    + subst d. constructor.
Qed.
Lemma fine_same : forall p q, fine q -> same_piece p q -> fine p.
Proof. intros p q F S. destruct S as [p|c d C D]; [exact F|]. vm_compute in C |- *. tauto. Qed.
Lemma wire_unique : forall ps qs, Forall rfc_piece ps -> Forall rfc_piece qs -> wire ps = wire qs -> ps = qs.
Proof.
  induction ps as [|p ps IH]; intros [|q qs] P Q E; [reflexivity|destruct q; discriminate E|destruct p; discriminate E|].
  inversion P as [|? ? P1 P2]; subst. inversion Q as [|? ? Q1 Q2]; subst.
  destruct p as [c|c], q as [d|d]; unfold wire in E; cbn [flat_map wire_piece app] in E.
  - injection E as -> E. f_equal. now apply IH.
  - injection E as -> _. now exfalso.
  - injection E as <- _. now exfalso.
  - injection E as -> E. f_equal. now apply IH.
Qed.
Lemma wire_chars : forall ps, Forall rfc_piece ps -> Forall value_char (wire ps) -> Forall (fun c => ~ control c \/ c = 10%N) (decoded ps).
Proof.
  induction ps as [|p ps IH]; intros P V; [constructor|]. inversion P as [|? ? P1 P2]; subst. unfold wire in V. cbn [flat_map] in V. apply Forall_app in V as [V1 V2].
  unfold decoded. cbn [map]. constructor; [|now apply IH]. destruct p as [c|c]; cbn [wire_piece decoded_piece rfc_piece] in *.
  - left. now inversion V1.
  - destruct (_ || _); [now right|]. left. inversion V1 as [|? ? _ V3]; subst. now inversion V3.
Qed.
(** The text that is written for what [w] decodes to says the same as [w] exactly if [w] is one text. *)
Lemma written_same : forall ps w', Forall rfc_piece ps -> Forall value_char (wire ps) -> text_written (decoded ps) w' ->
  (same_text (wire ps) w' <-> exists v, rfc_text v (wire ps)).
Proof.
  intros ps w' P V W. pose proof (wire_chars ps P V) as D. pose proof (proj2 (text_says _ _ W) D) as T. apply text_pieces in T as (qs & Q & -> & E). split.
  - intros (a & b & A & B & E1 & E2 & S). apply wire_unique in E1; [|easy|easy]. apply wire_unique in E2; [|now apply fine_rfc|easy]. subst a b.
    exists (decoded ps). apply pieces_text. clear - Q S. induction S as [|p q l m H _ IH]; [constructor|]. inversion Q; subst. constructor; [now apply fine_same in H|now apply IH].
  - intros (v & T). apply text_pieces in T as (a & A & E1 & ->). apply wire_unique in E1; [|easy|now apply fine_rfc]. subst a.
    exists ps, qs. split; [exact P|]. split; [now apply fine_rfc|]. split; [reflexivity|]. split; [reflexivity|]. clear W D V P. revert qs Q E.
    induction A as [|p ps F _ IH]; intros [|q qs] Q E; try discriminate E; [constructor|]. inversion Q; subst. unfold decoded in E. cbn [map] in E. injection E as E1 E2.
    constructor; [now apply same_fine|now apply IH].
Qed.

(** ** Lines *)

Lemma regrouped_plain : forall vs ws v, vs <> [] -> ws <> [] -> ~ In COMMA v -> regrouped vs ws -> (vs = [v] <-> ws = [v]).
Proof.
  intros vs ws v N M C [J E]. assert (O : forall l, l <> [] -> joined l = v -> l = [v]).
  { intros [|x [|y l]] L H; [easy| |].
    - cbn [joined map concat] in H. rewrite app_nil_r in H. now subst.
    - exfalso. apply C. rewrite <- H, joined_cons by easy. apply in_or_app. right. now left. }
  assert (V : joined [v] = v) by (cbn [joined map concat]; apply app_nil_r).
  split; intros ->; apply O; try easy; [now rewrite J|now rewrite <- J].
Qed.
Definition moved (ps qs : list (str * list str)) : Prop :=
  Forall2 (fun a b => fst b = fst a /\ snd a <> [] /\ snd b <> [] /\ regrouped (snd a) (snd b)) ps qs.
Lemma first_moved : forall same ps qs v, moved ps qs -> ~ In COMMA v -> (first_named same ps [v] <-> first_named same qs [v]).
Proof.
  intros same ps qs v F C. split; intros (a & k & b & E & S & G); subst.
  - apply Forall2_app_inv_l in F as (a' & b' & A & B & ->). inversion B as [|? [k' ws] ? b1 (K & N & M & R) B1]; subst. cbn [fst snd] in *. subst k'.
    exists a', k, b1. rewrite (proj1 (regrouped_plain _ _ v N M C R) eq_refl). split; [reflexivity|]. split; [exact S|].
    clear - A G. induction A as [|x y l m (K & _) _ IH]; [constructor|]. inversion G; subst. constructor; [now rewrite K|now apply IH].
  - apply Forall2_app_inv_r in F as (a' & b' & A & B & ->). inversion B as [|[k' ws] ? b1 ? (K & N & M & R) B1]; subst. cbn [fst snd] in *. subst k'.
    exists a', k, b1. rewrite (proj2 (regrouped_plain _ _ v N M C R) eq_refl). split; [reflexivity|]. split; [exact S|].
    clear - A G. induction A as [|x y l m (K & _) _ IH]; [constructor|]. inversion G; subst. constructor; [now rewrite <- K|now apply IH].
Qed.
Lemma text_no_comma : forall v, any_case (lit "TEXT") v -> ~ In COMMA v.
Proof.
  intros v E I. assert (J : In COMMA (map ascii_upper v)) by (apply in_map_iff; exists COMMA; now split). rewrite <- E in J.
  vm_compute in J. intuition discriminate.
Qed.
Lemma text_moved : forall r r', rl_name r' = rl_name r -> moved (rl_params r) (rl_params r') -> (says_text r' <-> says_text r).
Proof.
  intros r r' N F. unfold says_text. rewrite N.
  assert (A : Forall (fun q => ~ any_case (lit "VALUE") (fst q)) (rl_params r') <-> Forall (fun q => ~ any_case (lit "VALUE") (fst q)) (rl_params r)).
  { clear N. generalize (lit "VALUE"). intros w. induction F as [|x y l m (K & _) _ IH]; [reflexivity|]. rewrite !Forall_cons_iff, IH, K. reflexivity. }
  rewrite A. split; (intros [(v & H & T)|H]; [left|now right]); exists v; (split; [|exact T]); apply text_no_comma in T; now apply (first_moved _ _ _ v F T).
Qed.
Lemma moved_params : forall ps qs, moved ps qs -> NoDup (map fst ps) ->
  params_as regrouped ps qs /\ (params_as eq ps qs <-> Forall (fun q => ~ merged (snd q)) ps).
Proof.
  intros ps qs F N. assert (K : map fst qs = map fst ps) by (clear N; induction F as [|x y l m (K & _) _ IH]; [reflexivity|]; cbn [map]; now rewrite K, IH).
  assert (M : NoDup (map fst qs)) by now rewrite K.
  assert (L : length qs = length ps) by (rewrite <- (map_length fst qs), K; apply map_length).
  assert (A : forall k vs, In (k, vs) ps -> exists ws, In (k, ws) qs /\ regrouped vs ws).
  { clear - F. induction F as [|[k vs] [k' ws] l m (K & _ & _ & R) _ IH]; [easy|]. cbn [fst snd] in *. subst k'. intros n us [E|I].
    - injection E as <- <-. exists ws. split; [now left|exact R].
    - apply IH in I as (w & I & W). exists w. split; [now right|exact W]. }
  split; [now split|]. split.
  - intros (_ & _ & H). apply Forall_forall. intros [k vs] I. cbn [snd]. destruct (A k vs I) as (ws & J & R). destruct (H k vs I) as (us & J' & <-).
    assert (ws = vs) as -> by (apply nodup_get in J; [|exact M]; apply nodup_get in J'; [|exact M]; rewrite J in J'; now injection J'). now apply R.
  - intros H. split; [exact L|]. split; [exact M|]. intros k vs I. rewrite Forall_forall in H. pose proof (H _ I) as Q. cbn [snd] in Q.
    destruct (A k vs I) as (ws & J & R). apply R in Q. subst ws. now exists vs.
Qed.

Lemma same_refl : forall ps, Forall rfc_piece ps -> same_text (wire ps) (wire ps).
Proof. intros ps P. exists ps, ps. repeat (split; [easy|]). clear P. induction ps; constructor; [constructor|assumption]. Qed.
(** A text is written as it is exactly if there is nothing to escape. *)
Lemma text_plain : forall v w, Forall value_char v -> rfc_text v w -> (w = v <-> Forall (fun c => ~ In c [BSL; SEMI; COMMA]) v).
Proof.
  intros v w V T. assert (L : length v <= length w) by (clear V; induction T; cbn [length]; lia). split.
  - intros E. assert (Q : length w = length v) by now rewrite E. clear E L. revert V Q. induction T as [|c t w N I _ IH|c t w I T IH|c t w I T IH]; intros V Q; [constructor| | |].
    + inversion V; subst. cbn [length] in Q. constructor; [exact I|]. apply IH; [assumption|lia].
    + exfalso. assert (length t <= length w) by (clear - T; induction T; cbn [length]; lia). cbn [length] in Q. lia.
    + exfalso. assert (length t <= length w) by (clear - T; induction T; cbn [length]; lia). cbn [length] in Q. lia.
  - intros F. clear L. induction T as [|c t w N I _ IH|c t w I _ IH|c t w I _ IH]; [reflexivity| | |]; inversion V as [|? ? V1 V2]; subst; inversion F as [|? ? F1 F2]; subst.
    + f_equal. now apply IH.
    + now destruct F1.
    + exfalso. apply V1. vm_compute. intuition discriminate.
Qed.
Lemma any_case_dec : forall a b, any_case a b \/ ~ any_case a b.
Proof. intros a b. unfold any_case. destruct (str_eqb (map ascii_upper a) (map ascii_upper b)) eqn:E; [left; now apply str_eqb_eq|right; now apply str_eqb_neq]. Qed.
Lemma says_text_dec : forall r, says_text r \/ ~ says_text r.
Proof.
  intros r. unfold says_text. generalize (any_case_dec (lit "VALUE")). generalize (any_case (lit "VALUE")). intros same D.
  assert (X : (exists vs, first_named same (rl_params r) vs) \/ Forall (fun q => ~ same (fst q)) (rl_params r)).
  { induction (rl_params r) as [|[k vs] l [(ws & a & j & b & E & S & F)|IH]]; [right; constructor| |].
    - left. destruct (D k) as [S'|S']; [exists vs; exists [], k, l; now repeat split|]. exists ws, ((k, vs) :: a), j, b. rewrite E. split; [reflexivity|]. split; [exact S|]. now constructor.
    - destruct (D k) as [S'|S']; [left; exists vs; exists [], k, l; now repeat split|right; now constructor]. }
  destruct X as [(vs & X)|X].
  - assert (Y : ~ Forall (fun q => ~ same (fst q)) (rl_params r)).
    { destruct X as (a & k & b & E & S & _). rewrite E, Forall_app. intros [_ H]. now inversion H. }
    destruct vs as [|v [|w vs]].
    + right. intros [(u & H & _)|[H _]]; [|now apply Y]. now pose proof (first_fun _ _ _ _ X H).
    + destruct (any_case_dec (lit "TEXT") v) as [T|T]; [left; left; now exists v|]. right. intros [(u & H & HT)|[H _]]; [|now apply Y]. pose proof (first_fun _ _ _ _ X H) as E. injection E as <-. now apply T.
    + right. intros [(u & H & _)|[H _]]; [|now apply Y]. now pose proof (first_fun _ _ _ _ X H).
  - assert (Z : (exists n, In (n, Text) rfc_default_types /\ any_case (lit n) (rl_name r)) \/ ~ (exists n, In (n, Text) rfc_default_types /\ any_case (lit n) (rl_name r))).
    { induction rfc_default_types as [|[n t] l [(m & I & E)|IH]]; [right; now intros (n & [] & _)|left; exists m; split; [now right|exact E]|].
      destruct (any_case_dec (lit n) (rl_name r)) as [A|A].
      - destruct t; ((left; exists n; split; [now left|exact A]) || (right; intros (m & [E|I] & B); [discriminate E|apply IH; now exists m])).
      - right. intros (m & [E|I] & B); [injection E as -> _; now apply A|apply IH; now exists m]. }
    destruct Z as [Z|Z]; [left; now right|]. right. intros [(u & (a & k & b & E & S & _) & _)|[_ H]]; [|now apply Z]. rewrite E, Forall_app in X. destruct X as [_ X]. now inversion X.
Qed.

Section WithUnicode.
  Context {U : Unicode}.

  Definition line_kept_as (r r' : rline) : Prop := line_close r r' /\ (line_same r r' <-> line_single r).
  Lemma line_exported : forall r l q, property_name (rl_name r) -> rfc_line r l -> line_kept r l -> line_valid r -> line_said r q ->
    property_within (conv_prop q) /\ forall r', property_says (conv_prop q) r' -> line_kept_as r r'.
  Proof.
    intros r l q PN (TN & V & ts & RP & EL) (_ & _ & (ts' & KP & EL') & _ & VK & _) (ND & TP) (SN & SP & SV & SW).
    destruct (said_params r q SP ND) as (N & F & L). pose proof (kept_values _ _ KP) as KV. pose proof (params_chars _ _ RP) as PC. pose proof (params_tokens _ _ RP) as [_ NE].
    assert (T : is_text (conv_prop q) <-> taken_text r).
    { unfold is_text. rewrite (value_type_agree U q L), (determined _ _ _ SP NE). unfold taken_text. now rewrite SN. }
    assert (K : p_key (conv_prop q) = rl_name r) by (unfold conv_prop; cbn [p_key]; exact SN).
    assert (PV : p_val (conv_prop q) = pr_val q) by reflexivity. rewrite <- PV in SV, SW. clear PV.
    assert (TD : taken_text r \/ ~ taken_text r) by (rewrite <- T; unfold is_text; destruct (prop_value_type (conv_prop q)) as [[]|]; ((left; reflexivity) || (right; discriminate))).
    assert (VR : ~ taken_text r -> p_val (conv_prop q) = rl_value r).
    { intros I. destruct (says_text_dec r) as [J|J]; [|now apply SW]. destruct (TP J) as (ps & P & E). rewrite (SV J ps P E), E. symmetry. apply wire_plain; [exact P|]. rewrite <- E. now apply (VK J I ps). }
    split.
    - split; [|now rewrite K]. split; [now rewrite K|]. split; [|split].
      + clear - F PC. induction F as [|a b l m [K J] _ IH]; [constructor|]. inversion PC as [|? ? [P1 P2] P3]; subst. constructor; [|now apply IH]. destruct a, b. cbn [fst snd] in *. now subst.
      + intros _. destruct (says_text_dec r) as [J|J].
        * destruct (TP J) as (ps & P & E). rewrite (SV J ps P E). apply wire_chars; [exact P|]. now rewrite <- E.
        * rewrite SW by exact J. eapply Forall_impl; [|exact V]. intros c C. now left.
      + intros I. rewrite VR by now rewrite <- T. exact V.
    - intros r' (R1 & R2 & R3 & R4). rewrite T in R3, R4.
      assert (MV : moved (rl_params r) (rl_params r')).
      { clear - F R2 KV NE. revert R2. generalize (rl_params r'). induction F as [|a b l m [K J] _ IH]; intros qs R; inversion R as [|? s ? qs' [S1 S2] R']; subst; [constructor|].
        inversion KV as [|? ? K1 K2]; subst. inversion NE as [|? ? N1 N2]; subst. rewrite J in S2. constructor; [|now apply IH].
        split; [now rewrite S1|]. split; [exact N1|]. split; [now apply pvalue_joined in S2|now apply K1]. }
      assert (RN : rl_name r' = rl_name r) by now rewrite R1.
      pose proof (text_moved r r' RN MV) as TM. pose proof (moved_params _ _ MV N) as [PA PS].
      assert (NT : ~ taken_text r -> rl_value r' = rl_value r) by (intros I; rewrite R4 by exact I; now apply VR).
      assert (RT : taken_text r -> ~ says_text r -> rfc_text (rl_value r) (rl_value r')).
      { intros I J. specialize (R3 I). rewrite (SW J) in R3. apply (proj2 (text_says _ _ R3)). eapply Forall_impl; [|exact V]. intros c C. now left. }
      split.
      + split; [exact RN|]. split; [exact PA|]. split; [exact TM|]. split; [|now split]. intros I J ps P E. specialize (R3 I). rewrite (SV J ps P E) in R3.
        apply (proj2 (text_says _ _ R3)). apply wire_chars; [exact P|]. now rewrite <- E.
      + assert (TS : taken_text r -> says_text r -> (same_text (rl_value r) (rl_value r') <-> exists v, rfc_text v (rl_value r))).
        { intros I J. destruct (TP J) as (ps & P & E). specialize (R3 I). rewrite (SV J ps P E) in R3. rewrite E in V |- *. now apply written_same. }
        split.
        * intros (_ & Q1 & _ & Q2 & Q3). split; [now apply PS|]. split; [intros I J; apply (TS I J); now apply Q2|]. intros I J. specialize (RT I J). rewrite (Q3 J) in RT. now apply (text_plain _ _ V RT).
        * intros (Q1 & Q2 & Q3). split; [exact RN|]. split; [now apply PS|]. split; [exact TM|]. split.
          -- intros J. destruct TD as [I|I]; [apply (TS I J); now apply Q2|]. rewrite NT by exact I. destruct (TP J) as (ps & P & E). rewrite E. now apply same_refl.
          -- intros J. destruct TD as [I|I]; [|now apply NT]. apply (text_plain _ _ V (RT I J)). now apply Q3.
  Qed.
End WithUnicode.

(** ** Components *)

Lemma forall2_length : forall {A B} (P : A -> B -> Prop) l m, Forall2 P l m -> length l = length m.
Proof. intros A B P l m F. induction F; cbn [length]; congruence. Qed.

Lemma under_groups : forall k gs, ascending (map fst gs) -> Forall (fun '(k, ps) => Forall (fun p => p_key p = k) ps) gs ->
  (forall g, In (k, g) gs -> under k (flat_map snd gs) = g) /\ ((forall g, ~ In (k, g) gs) -> under k (flat_map snd gs) = []).
Proof.
  intros k gs A F. induction gs as [|[k' ps] gs IH]; [split; easy|]. cbn [map fst ascending] in A. destruct A as [A1 A2]. inversion F as [|? ? F1 F2]; subst.
  destruct (IH A2 F2) as [I1 I2]. cbn [flat_map snd]. rewrite under_app.
  assert (Z : (k' <> k -> under k ps = []) /\ (k' = k -> under k ps = ps)).
  { clear - F1. split; intros E.
    - apply under_none. eapply Forall_impl; [|exact F1]. intros p H. cbn beta in H. congruence.
    - subst k'. unfold under. induction F1 as [|p ps H _ IH]; [reflexivity|]. cbn [filter]. now rewrite H, str_eqb_refl, IH. }
  split.
  - intros g [E|I].
    + injection E as -> ->. rewrite (proj2 Z eq_refl), I2, app_nil_r; [reflexivity|]. intros g' J. rewrite Forall_forall in A1. apply (str_lt_irrefl k). apply A1.
      apply in_map_iff. now exists (k, g').
    + rewrite (proj1 Z), (I1 g I); [reflexivity|]. intros ->. rewrite Forall_forall in A1. apply (str_lt_irrefl k), A1. apply in_map_iff. now exists (k, g).
  - intros N. rewrite (proj1 Z), I2; [reflexivity|intros g I; apply (N g); now right|]. intros ->. apply (N ps). now left.
Qed.
Lemma under_stamp : forall k p, p_key p <> k -> under k [p] = [].
Proof. intros k p N. apply under_none. now constructor. Qed.
Lemma under_stamped : forall k p, p_key p = k -> under k [p] = [p].
Proof. intros k p <-. unfold under. cbn [filter]. now rewrite str_eqb_refl. Qed.
Lemma find_last : forall A (f : A -> bool) l, match find f (rev l) with Some q => exists a, filter f l = a ++ [q] | None => filter f l = [] end.
Proof.
  intros A f l. induction l as [|q l IH]; [reflexivity|]. cbn [rev]. rewrite find_app. cbn [find filter]. destruct (find f (rev l)) as [x|].
  - destruct IH as (a & ->). destruct (f q); [now exists (q :: a)|now exists a].
  - rewrite IH. destruct (f q); [now exists []|reflexivity].
Qed.
Lemma arranged_named : forall e n qs ds k ps cs name, arranged e k (conv_inner (mk_pcomp n qs ds)) (Node k ps cs) ->
  if is_multi_name name then under name ps = map conv_prop (filter (fun q => str_eqb (Parser.pr_name q) name) qs)
  else match find (fun q => str_eqb (Parser.pr_name q) name) (rev qs) with
       | Some q => under name ps = [conv_prop q]
       | None => under name ps = [] \/ In name [lit "DTSTAMP"; lit "UID"] /\ length (under name ps) = 1
       end.
Proof.
  intros e n qs ds k ps cs name A. pose proof (conv_inner_well (mk_pcomp n qs ds)) as W.
  inversion A as [k' i' stamp ps1 u gs cs' A1 A2 A3 A4 A5 A6 A7]; subst. inversion W as [? [B1 B2 B3 B4] D]; subst. clear W A A7 D.
  rewrite !under_app.
  assert (G : under name (flat_map snd gs) = match map_get name (i_multi (conv_inner (mk_pcomp n qs ds))) with Some g => g | None => [] end).
  { destruct (under_groups name gs A5) as [G1 G2].
    - apply Forall_forall. intros [k' g] I. apply A6 in I. apply map_get_in in I. rewrite Forall_forall in B4. now apply (B4 _ I).
    - destruct (map_get name _) as [g|] eqn:E; [apply G1; now apply A6|]. apply G2. intros g I. apply A6 in I. congruence. }
  assert (P : under name ps1 = match map_get name (i_props (conv_inner (mk_pcomp n qs ds))) with Some p => [p] | None => [] end).
  { rewrite (under_asc name ps1 A2). pose proof (last_with_spec name ps1) as L. destruct (last_with name ps1) as [p|].
    - destruct L as (a & b & -> & L1 & L2). assert (I : In p (a ++ p :: b)) by (apply in_or_app; right; now left). apply A3 in I. rewrite L1 in I. now rewrite I.
    - destruct (map_get name (i_props _)) as [p|] eqn:E; [|reflexivity]. exfalso. pose proof (map_get_in _ _ _ _ E) as I. rewrite Forall_forall in B2. specialize (B2 _ I). cbn beta iota in B2.
      assert (J : In p ps1) by (apply A3; now rewrite B2). rewrite Forall_forall in L. now apply (L p J). }
  rewrite G, P. clear G P A2 A3 A5 A6 B1 B2 B3 B4.
  assert (U1 : name <> lit "DTSTAMP" -> under name stamp = []).
  { intros E. destruct (map_get (lit "DTSTAMP") _); [now subst|]. destruct A1 as [m ->]. apply under_stamp. cbn [utc_prop text_prop p_key]. congruence. }
  assert (U2 : name <> lit "UID" -> under name u = []).
  { intros E. destruct (map_get (lit "UID") _); [now subst|]. destruct A4 as [m ->]. apply under_stamp. cbn [text_prop p_key]. congruence. }
  assert (DU : lit "DTSTAMP" <> lit "UID") by discriminate.
  rewrite conv_inner_single in *. rewrite conv_inner_multi. destruct (is_multi_name name) eqn:M.
  - rewrite U1, U2; [|intros ->; discriminate M|intros ->; discriminate M]. cbn [app]. now destruct (map conv_prop _).
  - destruct (find (fun q => str_eqb (Parser.pr_name q) name) (rev qs)) as [q|] eqn:Q; cbn [option_map app].
    + assert (V1 : under name stamp = []).
      { destruct (str_eqb name (lit "DTSTAMP")) eqn:E1; [apply str_eqb_eq in E1; subst name|now apply U1, str_eqb_neq]. rewrite M, Q in A1. cbn [option_map] in A1. now subst. }
      assert (V2 : under name u = []).
      { destruct (str_eqb name (lit "UID")) eqn:E1; [apply str_eqb_eq in E1; subst name|now apply U2, str_eqb_neq]. rewrite M, Q in A4. cbn [option_map] in A4. now subst. }
      now rewrite V1, V2.
    + destruct (str_eqb name (lit "DTSTAMP")) eqn:E1; [|destruct (str_eqb name (lit "UID")) eqn:E2].
      * apply str_eqb_eq in E1. right. split; [now left|]. subst name. rewrite U2 by exact DU. cbn [app].
        rewrite M in A1. rewrite Q in A1. cbn [option_map] in A1. destruct A1 as [m ->]. rewrite under_stamped by reflexivity. reflexivity.
      * apply str_eqb_eq in E2. right. split; [right; now left|]. subst name. rewrite U1 by congruence. cbn [app].
        rewrite M in A4. rewrite Q in A4. cbn [option_map] in A4. destruct A4 as [m ->]. rewrite under_stamped by reflexivity. reflexivity.
      * left. apply str_eqb_neq in E1, E2. now rewrite U1, U2.
Qed.

Section WithUnicode.
  Context {U : Unicode}.

  Definition line_ready (r : rline) (q : pprop) : Prop :=
    Parser.pr_name q = rl_name r /\ property_within (conv_prop q) /\ forall r', property_says (conv_prop q) r' -> line_kept_as r r'.
  Inductive ready : rtree -> pcomp -> Prop :=
  | Ready : forall k rs cs qs ds, token k -> Forall2 line_ready rs qs -> Forall2 ready cs ds -> ready (RNode k rs cs) (mk_pcomp k qs ds).

  Lemma lines_ready : forall rs ls qs, Forall2 (fun r l => (property_name (rl_name r) /\ rfc_line r l) /\ line_kept r l) rs ls ->
    Forall line_valid rs -> Forall2 line_said rs qs -> Forall2 line_ready rs qs.
  Proof.
    intros rs ls qs K. revert qs. induction K as [|r l rs ls [[A B] C] _ IH]; intros qs P S; inversion S as [|? q ? qs' S1 S2]; subst; [constructor|].
    inversion P as [|? ? P1 P2]; subst. constructor; [|now apply IH]. split; [apply S1|]. eapply line_exported; eassumption.
  Qed.
  Lemma tree_ready : forall t ls d, component_kept t ls -> tree_valid t -> component_said t d -> ready t d.
  Proof.
    induction t as [k rs cs IH] using rtree_deep. intros ls d K P S. inversion K as [? ? ps ? lss K1 K2 K3]; subst. inversion P as [? ? ? P1 P2]; subst.
    inversion S as [? ? ? qs ds S1 S2]; subst. constructor; [exact K1|eapply lines_ready; eassumption|].
    clear - IH K3 P2 S2. revert ds S2. induction K3 as [|c l cs lss C _ IHc]; intros ds S; inversion S as [|? d ? ds' S1 S2]; subst; [constructor|].
    inversion IH as [|? ? I1 I2]; subst. inversion P2 as [|? ? P1 P3]; subst. constructor; [now apply (I1 l)|now apply IHc].
  Qed.

  Lemma ready_filter : forall n rs qs, Forall2 line_ready rs qs -> Forall2 line_ready (named n rs) (filter (fun q => str_eqb (Parser.pr_name q) n) qs).
  Proof.
    intros n rs qs F. induction F as [|r q rs qs H _ IH]; [constructor|]. unfold named. cbn [filter]. rewrite (proj1 H). destruct (str_eqb (rl_name r) n); [constructor; [exact H|exact IH]|exact IH].
  Qed.
  Lemma says_filter : forall n ps rs, Forall2 property_says ps rs -> Forall2 property_says (under n ps) (named n rs).
  Proof.
    intros n ps rs F. induction F as [|p r ps rs H _ IH]; [constructor|]. unfold named, under. cbn [filter]. rewrite (proj1 H). destruct (str_eqb (p_key p) n); [constructor; [exact H|exact IH]|exact IH].
  Qed.
  Lemma ready_says : forall rs qs, Forall2 line_ready rs qs -> forall rs', Forall2 property_says (map conv_prop qs) rs' -> Forall2 line_kept_as rs rs'.
  Proof.
    intros rs qs F. induction F as [|r q rs qs H _ IH]; intros rs' S; inversion S as [|? r' ? rs1 S1 S2]; subst; constructor; [now apply H|now apply IH].
  Qed.
  Inductive tree_kept_as : rtree -> rtree -> Prop :=
  | Tree_kept_as : forall k rs cs rs' cs',
      (forall n, exists ls, left_lines n rs ls
         /\ (Forall2 line_kept_as ls (named n rs') \/ ls = [] /\ In n [lit "DTSTAMP"; lit "UID"] /\ length (named n rs') = 1)) ->
      Forall2 tree_kept_as cs cs' -> tree_kept_as (RNode k rs cs) (RNode k rs' cs').
  Lemma ready_tree : forall e t d k tr t', ready t d -> k = pc_name d -> arranged e k (conv_inner d) tr -> tree_says tr t' -> tree_kept_as t t'.
  Proof.
    intros e. induction t as [kt rs cs IH] using rtree_deep. intros d k tr t' R EK A S. inversion R as [? ? ? qs ds R1 R2 R4]; subst. cbn [pc_name] in *.
    destruct tr as [k ps ts]. inversion S as [? ? rs' ? cs' S1 S2]; subst. assert (k = kt) as -> by now inversion A.
    assert (AC : Forall2 (fun o t => arranged e (fst o) (snd o) t) (map (fun c => (pc_name c, conv_inner c)) ds) ts).
    { rewrite <- (conv_inner_comps kt qs ds). now inversion A. }
    constructor.
    - intros n. pose proof (ready_filter n _ _ R2) as F. pose proof (says_filter n _ _ S1) as G.
      pose proof (arranged_named e kt qs ds kt ps ts n A) as Q. pose proof (find_last _ (fun q => str_eqb (Parser.pr_name q) n) qs) as L. destruct (is_multi_name n) eqn:M.
      + apply is_multi_name_spec in M. exists (named n rs). split; [constructor; now left|]. left. rewrite Q in G. eapply ready_says; eassumption.
      + assert (MN : ~ multi_name n) by (intros I; apply is_multi_name_spec in I; congruence).
        destruct (find _ (rev qs)) as [q|].
        * destruct L as (a & L). rewrite L in F. apply Forall2_app_inv_r in F as (b & c & F1 & F2 & E). inversion F2 as [|r ? c' ? F3 F4]; subst. inversion F4; subst.
          exists [r]. split; [now apply (ll_last n rs b)|]. left. rewrite Q in G. apply (ready_says [r] [q]); [now constructor|exact G].
        * rewrite L in F. assert (E : named n rs = []) by now inversion F. exists []. split; [rewrite <- E; constructor; now right|]. destruct Q as [Q|[I O]].
          -- left. rewrite Q in G. inversion G. constructor.
          -- right. split; [reflexivity|]. split; [exact I|]. rewrite <- O. symmetry. eapply forall2_length. exact G.
    - clear - IH R4 AC S2. revert ts cs' AC S2. induction R4 as [|c d cs ds R _ IHc]; intros ts cs' AC S2.
      + inversion AC; subst. inversion S2. constructor.
      + inversion AC as [|? t ? ts1 A1 A2]; subst. inversion S2 as [|? c' ? cs1 S1 S3]; subst. inversion IH as [|? ? I1 I2]; subst.
        constructor; [|now apply (IHc I2 ts1)]. eapply I1; [exact R|reflexivity|exact A1|exact S1].
  Qed.
  Lemma ready_within : forall t d, ready t d -> inner_within (pc_name d) (conv_inner d).
  Proof.
    induction t as [k rs cs IH] using rtree_deep. intros d R. inversion R as [? ? ? qs ds R1 R2 R4]; subst. cbn [pc_name].
    assert (Q : Forall (fun q => property_within (conv_prop q)) qs) by (clear - R2; induction R2 as [|r q rs qs (_ & H & _) _ I]; now constructor).
    constructor; [exact R1| | |].
    - intros key p G. rewrite conv_inner_single in G. destruct (is_multi_name key); [discriminate G|].
      destruct (find _ (rev qs)) as [q|] eqn:F; [|discriminate G]. injection G as <-. apply find_some in F as [F _]. apply in_rev in F. rewrite Forall_forall in Q. now apply Q.
    - intros key g G. rewrite conv_inner_multi in G. destruct (is_multi_name key); [|discriminate G].
      assert (g = map conv_prop (filter (fun q => str_eqb (Parser.pr_name q) key) qs)) as -> by (destruct (map conv_prop _); [discriminate G|now injection G as <-]).
      apply Forall_map, Forall_forall. intros q I. apply filter_In in I as [I _]. rewrite Forall_forall in Q. now apply Q.
    - rewrite conv_inner_comps. apply Forall_map. cbn [fst snd]. clear - IH R4. induction R4 as [|c d cs ds R _ IHc]; [constructor|]. inversion IH; subst. constructor; [eauto|now apply IHc].
  Qed.
End WithUnicode.

(** ** Comparing whole calendars *)

Lemma forall2_imp : forall {A B} (P Q : A -> B -> Prop) l m, (forall a b, P a b -> Q a b) -> Forall2 P l m -> Forall2 Q l m.
Proof. intros A B P Q l m H F. induction F; constructor; auto. Qed.
Lemma kept_lines : forall rs rs', Forall2 line_kept_as rs rs' -> Forall2 line_close rs rs' /\ (Forall2 line_same rs rs' <-> Forall line_single rs).
Proof.
  intros rs rs' F. split; [eapply forall2_imp; [|exact F]; now intros a b [H _]|]. induction F as [|r r' rs rs' [_ H] _ IH]; [split; constructor|]. split.
  - intros G. inversion G; subst. constructor; [now apply H|now apply IH].
  - intros G. inversion G; subst. constructor; [now apply H|now apply IH].
Qed.
Lemma kept_tree : forall t t', tree_kept_as t t' -> tree_close t t' /\ (tree_same t t' <-> tree_single t).
Proof.
  induction t as [k rs cs IH] using rtree_deep. intros t' T. inversion T as [? ? ? rs' cs' T1 T2]; subst.
  assert (C : Forall2 tree_close cs cs' /\ (Forall2 tree_same cs cs' <-> Forall tree_single cs)).
  { clear T T1. induction T2 as [|c c' cs cs' C _ IHc]; [repeat split; constructor|]. inversion IH as [|? ? I1 I2]; subst. specialize (IHc I2). specialize (I1 c' C).
    split; [constructor; tauto|]. split; intros G; inversion G; subst; constructor; tauto. }
  destruct C as [CC CS].
  assert (L : (forall n, Forall2 line_same (named n rs) (named n rs') \/ named n rs = [] /\ In n [lit "DTSTAMP"; lit "UID"] /\ length (named n rs') = 1)
    <-> Forall line_single rs /\ forall n, 2 <= length (named n rs) -> multi_name n).
  { assert (FULL : forall n ls, left_lines n rs ls -> length ls = length (named n rs) -> ls = named n rs).
    { intros n ls O E. destruct O as [_|a r _ Q]; [reflexivity|]. rewrite Q, app_length in E. destruct a; [now rewrite Q|cbn in E; lia]. }
    split.
    - intros H. assert (Q : forall n ls, left_lines n rs ls -> (Forall2 line_kept_as ls (named n rs') \/ ls = [] /\ In n [lit "DTSTAMP"; lit "UID"] /\ length (named n rs') = 1) ->
        (named n rs = [] \/ ls = named n rs /\ Forall2 line_kept_as ls (named n rs')) /\ (2 <= length (named n rs) -> multi_name n)).
      { intros n ls O K. destruct (H n) as [F|[E _]]; [|rewrite E; split; [now left|cbn; lia]].
        assert (NL : ls = [] -> named n rs = []).
        { intros ->. inversion O as [_ E|]; subst; now symmetry. }
        destruct K as [K|[E _]]; [|specialize (NL E); rewrite NL; split; [now left|cbn; lia]].
        apply forall2_length in F as F'. apply forall2_length in K as K'. assert (E : ls = named n rs) by (apply FULL; [exact O|congruence]).
        split; [right; now split|]. intros L. destruct O as [[O|O]|a r NM O]; [exact O|rewrite O in L; cbn in L; lia|]. rewrite O in *. rewrite app_length in *. cbn [length] in *.
        rewrite <- K' in F'. destruct a; cbn [length] in *; lia. }
      split.
      + apply Forall_forall. intros r I. assert (J : In r (named (rl_name r) rs)) by (apply filter_In; split; [exact I|apply str_eqb_refl]).
        destruct (T1 (rl_name r)) as (ls & O & K). destruct (Q _ _ O K) as [[E|[E G]] _]; [now rewrite E in J|].
        destruct (H (rl_name r)) as [F|[E' _]]; [|now rewrite E' in J]. rewrite E in G. apply kept_lines in G as [_ G]. apply G in F. rewrite Forall_forall in F. now apply F.
      + intros n. destruct (T1 n) as (ls & O & K). now apply (Q n ls O K).
    - intros [H M] n. destruct (T1 n) as (ls & O & K).
      assert (E : ls = named n rs).
      { destruct O as [_|a r NM Q]; [reflexivity|]. rewrite Q. destruct a as [|x a]; [reflexivity|]. exfalso. apply NM, M. rewrite Q. cbn [app length]. rewrite app_length. cbn [length]. lia. }
      subst ls. destruct K as [G|G]; [left|now right]. apply kept_lines in G as [_ G]. apply G. rewrite Forall_forall in H |- *. intros r I. apply filter_In in I as [I _]. now apply H. }
  split; [|split].
  - constructor; [|exact CC]. intros n. destruct (T1 n) as (ls & O & K). exists ls. split; [exact O|]. destruct K as [K|K]; [left; now apply kept_lines|now right].
  - intros S. inversion S; subst. constructor; [now apply L|now apply L|now apply CS].
  - intros S. inversion S; subst. constructor; [now apply L|now apply CS].
Qed.
Lemma kept_trees : forall cs cs', Forall2 tree_kept_as cs cs' -> Forall2 tree_close cs cs' /\ (Forall2 tree_same cs cs' <-> Forall tree_single cs).
Proof.
  intros cs cs' K. induction K as [|c c' cs cs' C _ IHc]; [repeat split; constructor|]. apply kept_tree in C. split; [constructor; tauto|]. split; intros G; inversion G; subst; constructor; tauto.
Qed.
Lemma calendar_exported : forall {U : Unicode} rs cs s, document_kept (RNode (lit "VCALENDAR") rs cs) s -> tree_valid (RNode (lit "VCALENDAR") rs cs) ->
  exists c, calendar_from_str s = Ok c /\ cal_within c /\ Forall (fun x => made (cc_inner x)) (c_comps c)
    /\ forall e ts t', Forall2 (fun x t => arranged e (cc_kind x) (cc_inner x) t) (c_comps c) ts -> tree_says (Node (lit "VCALENDAR") (c_props c) ts) t' ->
        calendar_close (RNode (lit "VCALENDAR") rs cs) t' /\ (calendar_same (RNode (lit "VCALENDAR") rs cs) t' <-> calendar_single (RNode (lit "VCALENDAR") rs cs)).
Proof.
  intros U rs cs s K V. assert (D : rfc_document (RNode (lit "VCALENDAR") rs cs) s) by (destruct K as (ls & ts & C & F & E); exists ls, ts; split; [now apply kept_rfc|now split]).
  destruct (proj2 (calendar_exact rs cs s D) K) as (pc & R & S1 & S2). destruct K as (ls & us & C & F & E). inversion C as [? ? ps ? lss K1 K2 K3]; subst. inversion V as [? ? ? V1 V2]; subst.
  assert (LR : Forall2 line_ready rs (pcal_props pc)) by (eapply lines_ready; eassumption).
  assert (TR : Forall2 ready cs (pcal_comps pc)).
  { clear - K3 V2 S2. revert S2. generalize (pcal_comps pc). induction K3 as [|c l cs lss C _ IH]; intros ds S; inversion S as [|? d ? ds' S1 S3]; subst; [constructor|].
    inversion V2; subst. constructor; [eapply tree_ready; eassumption|now apply IH]. }
  exists (conv_cal pc). split; [unfold calendar_from_str; now rewrite R|]. unfold conv_cal. cbn [c_props c_comps]. split; [split|split].
  - apply Forall_map. clear - LR. induction LR as [|r q rs qs (_ & H & _) _ I]; now constructor.
  - cbn [c_comps]. apply Forall_map. clear - TR. induction TR as [|c d cs ds R _ I]; constructor; [|exact I]. destruct (conv_cc_kind d) as [-> ->]. eapply ready_within. exact R.
  - apply Forall_map, Forall_forall. intros d _. rewrite (proj2 (conv_cc_kind d)). apply made_parsed.
  - intros e ts t' A T. inversion T as [? ? rs' ? cs' T1 T2]; subst.
    assert (X1 : Forall2 line_kept_as rs rs') by (eapply ready_says; eassumption).
    assert (X2 : Forall2 tree_kept_as cs cs').
    { clear - TR A T2. revert ts cs' A T2. induction TR as [|c d cs ds R _ IHc]; intros ts cs' A T2.
      - inversion A; subst. inversion T2. constructor.
      - inversion A as [|? t ? ts1 A1 A2]; subst. inversion T2 as [|? c' ? cs1 S1 S3]; subst. constructor; [|now apply (IHc ts1)].
        destruct (conv_cc_kind d) as [E1 E2]. rewrite E1, E2 in A1. eapply ready_tree; [exact R|reflexivity|exact A1|exact S1]. }
    apply kept_lines in X1 as [X1 Y1]. apply kept_trees in X2 as [X2 Y2]. split; [now constructor|]. split; intros S; inversion S; subst; constructor; tauto.
Qed.
