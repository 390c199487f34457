(** JSON texts: proofs. *)
From Coq Require Import ZifyBool ZifyNat ZifyN.
From Verif Require Import Str ValueTypes Property Component Calendar Nom Parser Fold ErrorText Serde JsonText SpecSerde SpecJson SerdeProofs.

Lemma is_space_spec : forall c, is_space c = true <-> In c [32; 9; 10; 13]%N.
Proof. intros c. unfold is_space. cbn [In]. lia. Qed.
Definition no_space (j : str) : Prop := match j with c :: _ => is_space c = false | [] => True end.
Lemma skip_space_is : forall i, exists a, i = a ++ skip_space i /\ space a /\ no_space (skip_space i).
Proof.
  induction i as [|c i (a & E & S & N)]; [exists []; split; [easy|split; [constructor|easy]]|]. cbn [skip_space]. destruct (is_space c) eqn:Q.
  - exists (c :: a). split; [cbn [app]; now rewrite <- E|]. split; [|easy]. constructor; [now apply is_space_spec|easy].
  - exists []. split; [easy|split; [constructor|easy]].
Qed.
Lemma skip_space_app : forall a j, space a -> no_space j -> skip_space (a ++ j) = j.
Proof.
  intros a j S N. induction S as [|c a C S IH]; cbn [app skip_space].
  - destruct j as [|c j]; [easy|]. cbn [no_space] in N. cbn [skip_space]. now rewrite N.
  - apply is_space_spec in C. now rewrite C.
Qed.

(** ** Strings *)
Lemma hex_value_spec : forall c x, hex_value c = Some x <-> hex_is x c.
Proof.
  intros c x. unfold hex_value, hex_is, in_range.
  destruct ((48 <=? c) && (c <=? 57))%N eqn:A; [split; [intros H; injection H as <-; lia|intros H; f_equal; lia]|].
  destruct ((65 <=? c) && (c <=? 70))%N eqn:B; [split; [intros H; injection H as <-; lia|intros H; f_equal; lia]|].
  destruct ((97 <=? c) && (c <=? 102))%N eqn:C; [split; [intros H; injection H as <-; lia|intros H; f_equal; lia]|].
  split; [easy|]. lia.
Qed.
Lemma hex_four_spec : forall i n r, hex_four i = Some (n, r) <-> exists h, i = h ++ r /\ four_hex n h.
Proof.
  intros i n r. split.
  - intros H. destruct i as [|a [|b [|c [|d i]]]]; try easy. cbn [hex_four] in H.
    destruct (hex_value a) as [x|] eqn:A; [|easy]. destruct (hex_value b) as [y|] eqn:B; [|easy].
    destruct (hex_value c) as [z|] eqn:C; [|easy]. destruct (hex_value d) as [w|] eqn:D; [|easy].
    injection H as <- <-. exists [a; b; c; d]. split; [easy|].
    replace (((x * 16 + y) * 16 + z) * 16 + w)%N with (4096 * x + 256 * y + 16 * z + w)%N by lia.
    apply hex_value_spec in A, B, C, D. now constructor.
  - intros (h & -> & H). inversion H as [x y z w a b c d A B C D]; subst. cbn [app hex_four].
    apply hex_value_spec in A, B, C, D. rewrite A, B, C, D. do 2 f_equal. lia.
Qed.
Lemma hex_four_app : forall n h r, four_hex n h -> hex_four (h ++ r) = Some (n, r).
Proof. intros n h r H. apply hex_four_spec. now exists h. Qed.
Lemma short_escape_spec : forall e c, short_escape e = Some c <-> In (e, c) escapes.
Proof.
  intros e c. unfold short_escape, QT, BS, escapes. cbn [In]. split.
  - intros H. repeat (match type of H with (if (e =? ?k)%N then _ else _) = _ => destruct (N.eqb_spec e k) as [->|?] end; [injection H as <-; tauto|]). easy.
  - intros H. repeat (destruct H as [H|H]; [injection H as <- <-; reflexivity|]). easy.
Qed.
Lemma unicode_escape_sound : forall i c r, unicode_escape i = Some (c, r) -> exists h, i = h ++ r /\ char_text c ([92; 117]%N ++ h).
Proof.
  intros i c r H. unfold unicode_escape in H. destruct (hex_four i) as [[u r1]|] eqn:F; [|easy].
  apply hex_four_spec in F as (h & -> & F). destruct (in_range 56320 57343 u) eqn:L; [easy|].
  destruct (in_range 55296 56319 u) eqn:K.
  - destruct r1 as [|x [|y r2]]; try easy. destruct ((x =? BS) && (y =? 117))%N eqn:X; [|easy].
    destruct (hex_four r2) as [[w r3]|] eqn:G; [|easy]. apply hex_four_spec in G as (g & -> & G).
    destruct (in_range 56320 57343 w) eqn:W; [|easy]. injection H as <- <-.
    apply andb_prop in X as [X1 X2]. apply N.eqb_eq in X1, X2. subst x y.
    exists (h ++ [92; 117]%N ++ g). split; [now rewrite <- !app_assoc|].
    replace ((u - 55296) * 1024 + (w - 56320) + 65536)%N with (65536 + 1024 * (u - 55296) + (w - 56320))%N by lia.
    unfold in_range in *. apply ct_pair; [easy|easy|lia|lia].
  - injection H as <- <-. exists h. split; [easy|]. apply ct_hex; [easy|]. unfold in_range in *. lia.
Qed.
Lemma unicode_escape_hex : forall n h r, four_hex n h -> (n < 55296 \/ 57344 <= n)%N -> unicode_escape (h ++ r) = Some (n, r).
Proof.
  intros n h r H L. unfold unicode_escape. rewrite (hex_four_app _ _ _ H).
  assert (A : in_range 56320 57343 n = false) by (unfold in_range; lia). assert (B : in_range 55296 56319 n = false) by (unfold in_range; lia).
  now rewrite A, B.
Qed.
Lemma unicode_escape_pair : forall a b g h r, four_hex a g -> four_hex b h -> (55296 <= a < 56320)%N -> (56320 <= b < 57344)%N ->
  unicode_escape (g ++ [92; 117]%N ++ h ++ r) = Some ((65536 + 1024 * (a - 55296) + (b - 56320))%N, r).
Proof.
  intros a b g h r G H A B. unfold unicode_escape. rewrite (hex_four_app _ _ _ G).
  assert (E1 : in_range 56320 57343 a = false) by (unfold in_range; lia). assert (E2 : in_range 55296 56319 a = true) by (unfold in_range; lia).
  assert (E3 : in_range 56320 57343 b = true) by (unfold in_range; lia).
  rewrite E1, E2. cbn [app]. change ((92 =? BS) && (117 =? 117))%N with true. cbv iota. rewrite (hex_four_app _ _ _ H), E3.
  do 2 f_equal. lia.
Qed.
Lemma string_char_sound : forall i c r, (forall j, i <> QT :: j) -> string_char i = Some (c, r) -> exists t, i = t ++ r /\ char_text c t.
Proof.
  intros i c r Q H. destruct i as [|x i]; [easy|]. cbn [string_char] in H. destruct (N.eqb_spec x BS) as [->|N].
  - destruct i as [|e i]; [easy|]. destruct (N.eqb_spec e 117) as [->|M].
    + apply unicode_escape_sound in H as (h & -> & H). exists ([92; 117]%N ++ h). now split.
    + destruct (short_escape e) as [d|] eqn:S; [|easy]. injection H as <- <-. exists [92%N; e]. split; [easy|].
      apply ct_short. now apply short_escape_spec.
  - destruct (x <? 32)%N eqn:L; [easy|]. injection H as <- <-. exists [x]. split; [easy|].
    apply ct_plain; [lia| |easy]. intros ->. now apply (Q i).
Qed.
Lemma string_char_complete : forall c t r, char_text c t -> string_char (t ++ r) = Some (c, r) /\ exists x u, t = x :: u /\ x <> QT.
Proof.
  intros c t r H. inversion H as [d L Q B|e d I|n h F L|a b g h G F A B]; subst.
  - split; [|now exists c, []]. cbn [app string_char]. destruct (N.eqb_spec c BS) as [->|_]; [easy|].
    destruct (N.ltb_spec c 32); [lia|easy].
  - split; [|now exists 92%N, [e]]. apply short_escape_spec in I. cbn [app string_char]. change (92 =? BS)%N with true. cbv iota.
    destruct (N.eqb_spec e 117) as [->|_]; [discriminate I|]. now rewrite I.
  - split; [|now exists 92%N, (117%N :: h)]. cbn [app string_char]. change (92 =? BS)%N with true. change (117 =? 117)%N with true. cbv iota.
    now apply unicode_escape_hex.
  - split; [|now exists 92%N, (117%N :: g ++ [92; 117]%N ++ h)]. rewrite <- !app_assoc. cbn [app string_char]. change (92 =? BS)%N with true.
    change (117 =? 117)%N with true. cbv iota. now apply unicode_escape_pair.
Qed.
Lemma string_rest_sound : forall f i s r, string_rest f i = Some (s, r) -> exists ts, i = concat ts ++ [34%N] ++ r /\ Forall2 char_text s ts.
Proof.
  induction f as [|f IH]; intros i s r H; [easy|]. cbn [string_rest] in H. destruct i as [|q i]; [easy|].
  destruct (N.eqb_spec q QT) as [->|N]; [injection H as <- <-; now exists []|].
  destruct (string_char (q :: i)) as [[c r1]|] eqn:C; [|easy]. destruct (string_rest f r1) as [[s1 r2]|] eqn:R; [|easy]. injection H as <- <-.
  apply string_char_sound in C as (t & E & C); [|intros j E; now injection E]. apply IH in R as (ts & -> & R).
  exists (t :: ts). split; [cbn [concat]; now rewrite <- app_assoc|now constructor].
Qed.
Lemma string_rest_complete : forall s ts f r, Forall2 char_text s ts -> length (concat ts) < f -> string_rest f (concat ts ++ [34%N] ++ r) = Some (s, r).
Proof.
  induction s as [|c s IH]; intros ts f r H L; inversion H as [|? t ? ts' C F]; subst.
  - destruct f; [lia|]. reflexivity.
  - destruct f as [|f]; [lia|]. destruct (string_char_complete c t (concat ts' ++ [34%N] ++ r) C) as (E & x & u & Et & Q).
    cbn [concat]. rewrite <- app_assoc. cbn [concat] in L. rewrite app_length in L. subst t. cbn [app] in E |- *. cbn [string_rest].
    destruct (N.eqb_spec x QT); [easy|]. cbn [app] in E. rewrite E. cbn [length] in L. fold ([34%N] ++ r). rewrite IH by (auto; lia). easy.
Qed.
Lemma string_text_read : forall s t r, string_text s t -> exists u, t = QT :: u /\ string_rest (S (length (u ++ r))) (u ++ r) = Some (s, r).
Proof.
  intros s t r H. inversion H as [? ts F]; subst. exists (concat ts ++ [34%N]). split; [easy|].
  rewrite <- app_assoc. apply string_rest_complete; [easy|]. rewrite app_length. lia.
Qed.

(** ** Numbers *)
Lemma run_of_is : forall f i, i = fst (run_of f i) ++ snd (run_of f i) /\ forallb f (fst (run_of f i)) = true
  /\ match snd (run_of f i) with c :: _ => f c = false | [] => True end.
Proof.
  induction i as [|c i (E & F & N)]; [easy|]. cbn [run_of]. destruct (f c) eqn:Q; cbn [fst snd forallb app]; [|easy].
  rewrite Q. split; [now f_equal|easy].
Qed.
Lemma run_of_app : forall (f : char -> bool) a b, forallb f a = true -> match b with c :: _ => f c = false | [] => True end -> run_of f (a ++ b) = (a, b).
Proof.
  induction a as [|c a IH]; intros b F N; cbn [app run_of].
  - destruct b as [|c b]; [easy|]. cbn [run_of]. now rewrite N.
  - cbn [forallb] in F. apply andb_prop in F as [C F]. rewrite C, (IH b F N). easy.
Qed.
Lemma digit_run_all : forall d, Forall (fun c => (48 <= c <= 57)%N) d <-> forallb is_digit d = true.
Proof.
  intros d. rewrite forallb_forall, Forall_forall. split; intros H c I; apply H in I; unfold is_digit, in_range in *; lia.
Qed.
Lemma digits_spec : forall i r, digits i = Some r <-> exists d, i = d ++ r /\ digit_run d /\ match r with c :: _ => is_digit c = false | [] => True end.
Proof.
  intros i r. unfold digits. split.
  - intros H. destruct (run_of_is is_digit i) as (E & F & N). destruct (run_of is_digit i) as [d u]. cbn [fst snd] in *.
    destruct d as [|x d]; [easy|]. injection H as <-. exists (x :: d). split; [easy|]. split; [|easy]. split; [easy|]. now apply digit_run_all.
  - intros (d & -> & [X F] & N). rewrite (run_of_app is_digit d r); [|now apply digit_run_all|easy]. now destruct d.
Qed.
Lemma drop_char_spec : forall c i r, drop_char c i = Some r <-> i = c :: r.
Proof.
  intros c [|d i] r; cbn [drop_char]; [easy|]. destruct (N.eqb_spec d c) as [->|N]; [split; intros H; injection H as <-; easy|].
  split; [easy|]. intros H. injection H as -> _. easy.
Qed.
Definition exp_text (exp : str) : Prop := exp = [] \/ exists x g d, In x [69; 101]%N /\ In g [[]; [43%N]; [45%N]] /\ digit_run d /\ exp = x :: g ++ d.
Definition frac_text (frac : str) : Prop := frac = [] \/ exists d, digit_run d /\ frac = 46%N :: d.
Lemma digit_run_first : forall d, digit_run d -> exists c r, d = c :: r /\ (48 <= c <= 57)%N.
Proof. intros d [N F]. destruct F as [|c d C F]; [easy|]. now exists c, d. Qed.
Lemma exponent_ok_spec : forall i, exponent_ok i = true <-> exp_text i.
Proof.
  intros i. unfold exp_text. destruct i as [|c r]; cbn [exponent_ok]; [split; auto|]. split.
  - intros H. right. destruct ((c =? 69) || (c =? 101))%N eqn:C; [|easy].
    destruct (digits _) as [u|] eqn:D; [|easy]. destruct u; [|easy]. apply digits_spec in D as (d & E & D & _). rewrite app_nil_r in E.
    assert (Ic : In c [69; 101]%N) by (cbn [In]; lia).
    destruct r as [|g r].
    + exists c, [], d. split; [easy|]. split; [now left|]. split; [easy|]. now rewrite <- E.
    + destruct ((g =? 43) || (g =? 45))%N eqn:G.
      * exists c, [g], d. split; [easy|]. split; [|split; [easy|now rewrite <- E]]. cbn [In].
        apply orb_prop in G as [G|G]; apply N.eqb_eq in G; subst g; tauto.
      * exists c, [], d. split; [easy|]. split; [now left|]. split; [easy|now rewrite <- E].
  - intros [H|(x & g & d & X & G & D & E)]; [easy|]. injection E as -> ->.
    assert (C : ((x =? 69) || (x =? 101))%N = true) by (cbn [In] in X; lia). rewrite C.
    assert (R : match g ++ d with h :: r' => if ((h =? 43) || (h =? 45))%N then r' else g ++ d | [] => g ++ d end = d).
    { cbn [In] in G. destruct G as [<-|[<-|[<-|[]]]]; try reflexivity. destruct (digit_run_first d D) as (c & r & -> & L). cbn [app].
      destruct ((c =? 43) || (c =? 45))%N eqn:Q; [lia|easy]. }
    match goal with |- context [digits ?m] => replace m with d by (symmetry; exact R) end. assert (Q : digits d = Some []). { apply digits_spec. exists d. now rewrite app_nil_r. } now rewrite Q.
Qed.
Lemma exp_start : forall i, exp_text i -> match i with c :: _ => is_digit c = false | [] => True end.
Proof. intros i [->|(x & g & d & X & G & D & ->)]; [easy|]. cbn [In] in X. unfold is_digit, in_range. lia. Qed.
Lemma fraction_ok_spec : forall i, fraction_ok i = true <-> exists f e, i = f ++ e /\ frac_text f /\ exp_text e.
Proof.
  intros i. unfold fraction_ok. split.
  - destruct (drop_char 46 i) as [r|] eqn:D.
    + apply drop_char_spec in D as ->. destruct (digits r) as [u|] eqn:G; [|easy]. intros H. apply exponent_ok_spec in H.
      apply digits_spec in G as (d & -> & G & _). exists (46%N :: d), u. split; [easy|]. split; [right; now exists d|easy].
    + intros H. apply exponent_ok_spec in H. exists [], i. split; [easy|]. split; [now left|easy].
  - intros (f & e & -> & [->|(d & D & ->)] & X).
    + cbn [app]. destruct (drop_char 46 e) as [r|] eqn:Q; [|now apply exponent_ok_spec].
      apply drop_char_spec in Q as ->. destruct X as [X|(x & g & d & I & _ & _ & X)]; [easy|]. injection X as <- _. cbn [In] in I. lia.
    + cbn [app]. assert (Q : drop_char 46 (46%N :: d ++ e) = Some (d ++ e)) by now apply drop_char_spec. rewrite Q.
      assert (G : digits (d ++ e) = Some e). { apply digits_spec. exists d. split; [easy|]. split; [easy|now apply exp_start]. }
      rewrite G. now apply exponent_ok_spec.
Qed.
Lemma frac_start : forall f e, frac_text f -> exp_text e -> match f ++ e with c :: _ => is_digit c = false | [] => True end.
Proof. intros f e [->|(d & D & ->)] X; [now apply exp_start|]. reflexivity. Qed.
Lemma int_ok : forall i, match drop_char 48%N i with Some r => fraction_ok r | None => match digits i with Some r => fraction_ok r | None => false end end = true
  <-> exists n f e, i = n ++ f ++ e /\ (n = [48%N] \/ digit_run n /\ forall r, n <> 48%N :: r) /\ frac_text f /\ exp_text e.
Proof.
  intros i. split.
  - destruct (drop_char 48 i) as [r|] eqn:D.
    + apply drop_char_spec in D as ->. intros H. apply fraction_ok_spec in H as (f & e & -> & F & X). exists [48%N], f, e. auto.
    + destruct (digits i) as [r|] eqn:G; [|easy]. intros H. apply fraction_ok_spec in H as (f & e & -> & F & X).
      apply digits_spec in G as (d & -> & G & _). exists d, f, e. split; [easy|]. split; [|easy]. right. split; [easy|].
      intros r ->. discriminate D.
  - intros (n & f & e & -> & [->|[D Z]] & F & X).
    + assert (Q : drop_char 48 ([48%N] ++ f ++ e) = Some (f ++ e)) by now apply drop_char_spec. rewrite Q. apply fraction_ok_spec. now exists f, e.
    + destruct (drop_char 48 (n ++ f ++ e)) as [r|] eqn:Q.
      { apply drop_char_spec in Q. destruct n as [|c n]; [now destruct D|]. injection Q as -> _. now destruct (Z n). }
      assert (G : digits (n ++ f ++ e) = Some (f ++ e)). { apply digits_spec. exists n. split; [easy|]. split; [easy|now apply frac_start]. }
      rewrite G. apply fraction_ok_spec. now exists f, e.
Qed.
Lemma number_ok_spec : forall i, number_ok i = true <-> number_text i.
Proof.
  intros i. unfold number_ok, drop_opt. rewrite int_ok. split.
  - intros (n & f & e & E & N & F & X). destruct (drop_char 45 i) as [r|] eqn:D.
    + apply drop_char_spec in D as ->. subst r. apply (nt [45%N] n f e); auto. now right; left.
    + subst i. apply (nt [] n f e); auto. now left.
  - intros H. inversion H as [sign n f e S N F X E]. exists n, f, e. split; [|auto].
    assert (D : exists c r, n = c :: r /\ (48 <= c <= 57)%N). { destruct N as [->|[N _]]; [exists 48%N, []; split; [easy|lia]|now apply digit_run_first]. }
    destruct D as (c & r & -> & L). cbn [In] in S. destruct S as [<-|[<-|[]]]; cbn [app drop_char]; [|easy].
    destruct (N.eqb_spec c 45); [lia|easy].
Qed.
Lemma digit_run_chars : forall d, digit_run d -> forallb is_number_char d = true.
Proof.
  intros d [_ F]. apply forallb_forall. intros c I. rewrite Forall_forall in F. apply F in I. unfold is_number_char, is_digit, in_range. lia.
Qed.
Lemma number_chars : forall t, number_text t -> forallb is_number_char t = true /\ exists c r, t = c :: r /\ (c = 45 \/ 48 <= c <= 57)%N.
Proof.
  intros t H. inversion H as [sign n f e S N F X E]. assert (A : forallb is_number_char n = true).
  { destruct N as [->|[N _]]; [easy|now apply digit_run_chars]. }
  split.
  - rewrite !forallb_app, A. assert (forallb is_number_char sign = true) as -> by (cbn [In] in S; destruct S as [<-|[<-|[]]]; easy).
    assert (forallb is_number_char f = true) as -> by (destruct F as [->|(d & D & ->)]; [easy|]; cbn [forallb]; now rewrite digit_run_chars).
    destruct X as [->|(x & g & d & Ix & G & D & ->)]; [easy|]. cbn [forallb]. rewrite forallb_app, (digit_run_chars d D).
    assert (is_number_char x = true) as -> by (cbn [In] in Ix; unfold is_number_char; lia).
    assert (forallb is_number_char g = true) as -> by (cbn [In] in G; destruct G as [<-|[<-|[<-|[]]]]; easy). easy.
  - assert (D : exists c r, n = c :: r /\ (48 <= c <= 57)%N). { destruct N as [->|[N _]]; [exists 48%N, []; split; [easy|lia]|now apply digit_run_first]. }
    destruct D as (c & r & -> & L). cbn [In] in S. destruct S as [<-|[<-|[]]]; cbn [app]; eexists _, _; (split; [reflexivity|lia]).
Qed.

(** ** Values *)
Lemma drop_word_spec : forall w i r, drop_word w i = Some r <-> i = w ++ r.
Proof.
  induction w as [|c w IH]; intros i r; cbn [drop_word app]; [split; intros H; [now injection H|now subst]|].
  destruct i as [|d i]; [easy|]. destruct (N.eqb_spec c d) as [->|N].
  - rewrite IH. split; intros H; [now subst|now injection H].
  - split; [easy|]. intros H. injection H as -> _. easy.
Qed.
Definition sound (p : str -> option (json * str)) : Prop :=
  forall i v r, p i = Some (v, r) -> exists a t, i = a ++ t ++ r /\ space a /\ json_text v t.
Lemma items_sound : forall p, sound p -> forall f i l r, items p f i = Some (l, r) -> l <> [] /\ exists t, i = t ++ [93%N] ++ r /\ array_text l t.
Proof.
  intros p P. induction f as [|f IH]; intros i l r H; [easy|]. cbn [items] in H.
  destruct (p i) as [[v r1]|] eqn:Q; [|easy]. apply P in Q as (a & t & -> & A & T).
  destruct (skip_space_is r1) as (b & E & B & _). destruct (skip_space r1) as [|c r2]; [easy|]. subst r1.
  destruct (N.eqb_spec c 93) as [->|_].
  - injection H as <- <-. split; [easy|]. exists (a ++ t ++ b). split; [now rewrite <- !app_assoc|]. now constructor.
  - destruct (N.eqb_spec c 44) as [->|_]; [|easy]. destruct (items p f r2) as [[l' r']|] eqn:I; [|easy]. injection H as <- <-.
    apply IH in I as (N & u & -> & U). split; [easy|]. exists (a ++ t ++ b ++ [44%N] ++ u).
    split; [now rewrite <- !app_assoc|]. now constructor.
Qed.
Lemma member_key_sound : forall i k r, member_key i = Some (k, r) -> exists a s b, i = a ++ s ++ b ++ [58%N] ++ r /\ space a /\ string_text k s /\ space b.
Proof.
  intros i k r H. unfold member_key in H. destruct (skip_space_is i) as (a & E & A & _). destruct (skip_space i) as [|q i1]; [easy|]. subst i.
  destruct (N.eqb_spec q QT) as [->|_]; [|easy]. destruct (string_rest (S (length i1)) i1) as [[k' r1]|] eqn:S; [|easy].
  apply string_rest_sound in S as (ts & -> & S). destruct (skip_space_is r1) as (b & E & B & _). destruct (skip_space r1) as [|c r2]; [easy|]. subst r1.
  destruct (N.eqb_spec c 58) as [->|_]; [|easy]. injection H as <- <-.
  exists a, ([34%N] ++ concat ts ++ [34%N]), b. split; [now rewrite <- !app_assoc|]. split; [easy|]. split; [now constructor|easy].
Qed.
Lemma members_sound : forall p, sound p -> forall f i m r, members p f i = Some (m, r) -> m <> [] /\ exists t, i = t ++ [125%N] ++ r /\ object_text m t.
Proof.
  intros p P. induction f as [|f IH]; intros i m r H; [easy|]. cbn [members] in H.
  destruct (member_key i) as [[k r0]|] eqn:K; [|easy]. apply member_key_sound in K as (a & s & b & -> & A & S & B).
  destruct (p r0) as [[v r1]|] eqn:Q; [|easy]. apply P in Q as (c & t & -> & C & T).
  destruct (skip_space_is r1) as (d & E & D & _). destruct (skip_space r1) as [|x r2]; [easy|]. subst r1.
  destruct (N.eqb_spec x 125) as [->|_].
  - injection H as <- <-. split; [easy|]. exists (a ++ s ++ b ++ [58%N] ++ c ++ t ++ d). split; [now rewrite <- !app_assoc|]. now constructor.
  - destruct (N.eqb_spec x 44) as [->|_]; [|easy]. destruct (members p f r2) as [[m' r']|] eqn:I; [|easy]. injection H as <- <-.
    apply IH in I as (N & u & -> & U). split; [easy|]. exists (a ++ s ++ b ++ [58%N] ++ c ++ t ++ d ++ [44%N] ++ u).
    split; [now rewrite <- !app_assoc|]. now constructor.
Qed.
Lemma json_value_sound : forall f, sound (json_value f).
Proof.
  induction f as [|f IH]; intros i v r H; [easy|]. cbn [json_value] in H.
  destruct (skip_space_is i) as (a & E & A & _). destruct (skip_space i) as [|c j]; [easy|]. subst i. exists a.
  destruct (N.eqb_spec c QT) as [->|_].
  { destruct (string_rest _ j) as [[s r']|] eqn:S; [|easy]. injection H as <- <-. apply string_rest_sound in S as (ts & -> & S).
    exists ([34%N] ++ concat ts ++ [34%N]). split; [now rewrite <- !app_assoc|]. split; [easy|]. now do 2 constructor. }
  destruct (N.eqb_spec c 91) as [->|_].
  { destruct (skip_space_is j) as (b & E & B & _). destruct (skip_space j) as [|d k]; [easy|]. destruct (N.eqb_spec d 93) as [->|_].
    - injection H as <- <-. subst j. exists ([91%N] ++ b ++ [93%N]). split; [now rewrite <- !app_assoc|]. split; [easy|]. now do 2 constructor.
    - destruct (items _ _ j) as [[l r']|] eqn:I; [|easy]. injection H as <- <-. apply items_sound in I as (_ & t & -> & T); [|easy].
      exists ([91%N] ++ t ++ [93%N]). split; [now rewrite <- !app_assoc|]. split; [easy|]. now constructor. }
  destruct (N.eqb_spec c 123) as [->|_].
  { destruct (skip_space_is j) as (b & E & B & _). destruct (skip_space j) as [|d k]; [easy|]. destruct (N.eqb_spec d 125) as [->|_].
    - injection H as <- <-. subst j. exists ([123%N] ++ b ++ [125%N]). split; [now rewrite <- !app_assoc|]. split; [easy|]. now do 2 constructor.
    - destruct (members _ _ j) as [[l r']|] eqn:I; [|easy]. injection H as <- <-. apply members_sound in I as (_ & t & -> & T); [|easy].
      exists ([123%N] ++ t ++ [125%N]). split; [now rewrite <- !app_assoc|]. split; [easy|]. now constructor. }
  destruct (c =? 110)%N.
  { destruct (drop_word _ _) as [k|] eqn:D; [|easy]. injection H as <- <-. apply drop_word_spec in D. exists (lit "null"). split; [now rewrite D|]. split; [easy|constructor]. }
  destruct (c =? 116)%N.
  { destruct (drop_word _ _) as [k|] eqn:D; [|easy]. injection H as <- <-. apply drop_word_spec in D. exists (lit "true"). split; [now rewrite D|]. split; [easy|constructor]. }
  destruct (c =? 102)%N.
  { destruct (drop_word _ _) as [k|] eqn:D; [|easy]. injection H as <- <-. apply drop_word_spec in D. exists (lit "false"). split; [now rewrite D|]. split; [easy|constructor]. }
  cbv zeta in H. destruct (run_of_is is_number_char (c :: j)) as (E & _ & _). destruct (run_of is_number_char (c :: j)) as [t u]. cbn [fst snd] in *.
  destruct (number_ok t) eqn:N; [|easy]. apply number_ok_spec in N. injection H as <- <-. exists t. split; [now rewrite E|]. split; [easy|]. now constructor.
Qed.

(** ** Completeness *)
Scheme json_text_mut := Minimality for json_text Sort Prop
with array_text_mut := Minimality for array_text Sort Prop
with object_text_mut := Minimality for object_text Sort Prop.
Combined Scheme json_texts_ind from json_text_mut, array_text_mut, object_text_mut.

Definition number_stop (r : str) : Prop := match r with c :: _ => is_number_char c = false | [] => True end.
Lemma space_stop : forall b r, space b -> number_stop r -> number_stop (b ++ r).
Proof.
  intros b r B R. destruct B as [|c b C B]; [easy|]. cbn [app number_stop]. cbn [In] in C. unfold is_number_char, is_digit, in_range. lia.
Qed.
Lemma value_start : forall v t, json_text v t -> exists c u, t = c :: u /\ is_space c = false /\ c <> 93%N /\ c <> 125%N.
Proof.
  intros v t H. inversion H as [| | |? N|? ? S| |]; subst.
  - now eexists _, _.
  - now eexists _, _.
  - now eexists _, _.
  - destruct (number_chars t N) as (_ & c & r & -> & L). exists c, r. split; [easy|]. unfold is_space. lia.
  - inversion S as [? ts F]; subst. now eexists _, _.
  - now eexists _, _.
  - now eexists _, _.
Qed.
Lemma skip_value : forall a v t r, space a -> json_text v t -> exists c u, t = c :: u /\ c <> 93%N /\ c <> 125%N /\ skip_space (a ++ t ++ r) = c :: u ++ r.
Proof.
  intros a v t r A T. destruct (value_start v t T) as (c & u & -> & S & X & Y). exists c, u. split; [easy|]. split; [easy|]. split; [easy|].
  now rewrite skip_space_app.
Qed.
Lemma member_key_complete : forall a k s b r, space a -> string_text k s -> space b -> member_key (a ++ s ++ b ++ [58%N] ++ r) = Some (k, r).
Proof.
  intros a k s b r A S B. destruct (string_text_read k s (b ++ [58%N] ++ r) S) as (u & -> & E). unfold member_key.
  rewrite skip_space_app by easy. cbn [app]. change (QT =? QT)%N with true. cbv iota. cbn [app] in E. rewrite E.
  rewrite skip_space_app by easy. reflexivity.
Qed.
Lemma json_complete :
  (forall v t, json_text v t -> forall a r f, space a -> number_stop r -> length t < f -> json_value f (a ++ t ++ r) = Some (v, r))
  /\ (forall l t, array_text l t -> forall f r, length t < f ->
       match l with [] => space t | _ => (exists d u, skip_space (t ++ 93%N :: r) = d :: u /\ d <> 93%N)
         /\ forall g, length t < g -> items (json_value f) g (t ++ 93%N :: r) = Some (l, r) end)
  /\ (forall m t, object_text m t -> forall f r, length t < f ->
       match m with [] => space t | _ => (exists d u, skip_space (t ++ 125%N :: r) = d :: u /\ d <> 125%N)
         /\ forall g, length t < g -> members (json_value f) g (t ++ 125%N :: r) = Some (m, r) end).
Proof.
  apply json_texts_ind.
  - intros a r f A R L. destruct f as [|f]; [easy|]. cbn [json_value]. rewrite skip_space_app by easy. reflexivity.
  - intros a r f A R L. destruct f as [|f]; [easy|]. cbn [json_value]. rewrite skip_space_app by easy. reflexivity.
  - intros a r f A R L. destruct f as [|f]; [easy|]. cbn [json_value]. rewrite skip_space_app by easy. reflexivity.
  - intros t N a r f A R L. destruct f as [|f]; [easy|]. pose proof (number_chars t N) as (F & c & u & E & C). cbn [json_value].
    assert (Z : no_space (t ++ r)) by (subst t; cbn [app no_space]; unfold is_space; lia). rewrite (skip_space_app a (t ++ r) A Z).
    pose proof (run_of_app is_number_char t r F R) as U. subst t. cbn [app] in U |- *. unfold QT.
    destruct (N.eqb_spec c 34); [lia|]. destruct (N.eqb_spec c 91); [lia|]. destruct (N.eqb_spec c 123); [lia|].
    destruct (N.eqb_spec c 110); [lia|]. destruct (N.eqb_spec c 116); [lia|]. destruct (N.eqb_spec c 102); [lia|].
    cbv zeta. rewrite U. cbn [fst snd]. apply number_ok_spec in N. now rewrite N.
  - intros s t S a r f A R L. destruct f as [|f]; [easy|]. destruct (string_text_read s t r S) as (u & -> & E).
    cbn [json_value]. rewrite skip_space_app by easy. cbn [app]. change (QT =? QT)%N with true. cbv iota. now rewrite E.
  - intros l t T IH a r f A R L. destruct f as [|f]; [easy|]. cbn [json_value]. rewrite skip_space_app by easy. cbn [app]. 
    change (91 =? QT)%N with false. change (91 =? 91)%N with true. cbv iota. rewrite !app_length in L. cbn [length] in L.
    rewrite <- app_assoc. cbn [app]. specialize (IH f r ltac:(lia)). destruct l as [|x l].
    + rewrite skip_space_app by easy. reflexivity.
    + destruct IH as [(d & u & E & D) I]. rewrite E. destruct (N.eqb_spec d 93); [easy|]. rewrite I; [easy|]. rewrite app_length. lia.
  - intros l t T IH a r f A R L. destruct f as [|f]; [easy|]. cbn [json_value]. rewrite skip_space_app by easy. cbn [app]. 
    change (123 =? QT)%N with false. change (123 =? 91)%N with false. change (123 =? 123)%N with true. cbv iota. rewrite !app_length in L. cbn [length] in L.
    rewrite <- app_assoc. cbn [app]. specialize (IH f r ltac:(lia)). destruct l as [|x l].
    + rewrite skip_space_app by easy. reflexivity.
    + destruct IH as [(d & u & E & D) I]. rewrite E. destruct (N.eqb_spec d 125); [easy|]. rewrite I; [easy|]. rewrite app_length. lia.
  - intros a A f r L. easy.
  - intros v a t b A T IH B f r L. rewrite !app_length in L. rewrite <- !app_assoc. split.
    + destruct (skip_value a v t (b ++ 93%N :: r) A T) as (c & u & _ & C & _ & E). exists c, (u ++ b ++ 93%N :: r). now split.
    + intros [|g] G; [easy|]. cbn [items]. rewrite IH; [|easy|now apply space_stop|lia]. now rewrite skip_space_app.
  - intros v l a t b u A T IH B N U IU f r L. rewrite !app_length in L. cbn [length] in L. rewrite <- !app_assoc. split.
    + destruct (skip_value a v t (b ++ [44%N] ++ u ++ 93%N :: r) A T) as (c & w & _ & C & _ & E). exists c, (w ++ b ++ [44%N] ++ u ++ 93%N :: r). now split.
    + intros [|g] G; [easy|]. rewrite !app_length in G. cbn [length] in G. cbn [items]. rewrite IH; [|easy|now apply space_stop|lia]. rewrite skip_space_app by easy. cbn [app].
      change (44 =? 93)%N with false. change (44 =? 44)%N with true. cbv iota. specialize (IU f r ltac:(lia)). destruct l as [|x l]; [easy|].
      destruct IU as [_ IU]. rewrite IU by lia. easy.
  - intros a A f r L. easy.
  - intros k v a s b c t d A S B C T IH D f r L. rewrite !app_length in L. cbn [length] in L. rewrite <- !app_assoc. split.
    + destruct (string_text_read k s [] S) as (u & -> & _). rewrite skip_space_app by easy. eexists QT, _. split; [reflexivity|easy].
    + intros [|g] G; [easy|]. cbn [members]. rewrite (member_key_complete a k s b) by easy. rewrite IH; [|easy|now apply space_stop|lia]. now rewrite skip_space_app.
  - intros k v m a s b c t d u A S B C T IH D N U IU f r L. rewrite !app_length in L. cbn [length] in L. rewrite <- !app_assoc. split.
    + destruct (string_text_read k s [] S) as (w & -> & _). rewrite skip_space_app by easy. eexists QT, _. split; [reflexivity|easy].
    + intros [|g] G; [easy|]. rewrite !app_length in G. cbn [length] in G. cbn [members]. rewrite (member_key_complete a k s b) by easy.
      rewrite IH; [|easy|now apply space_stop|lia]. rewrite skip_space_app by easy. cbn [app].
      change (44 =? 125)%N with false. change (44 =? 44)%N with true. cbv iota. specialize (IU f r ltac:(lia)). destruct m as [|x m]; [easy|].
      destruct IU as [_ IU]. rewrite IU by lia. easy.
Qed.
Lemma json_read_spec : forall s v, json_read s = Some v <-> json_document v s.
Proof.
  intros s v. unfold json_read. split.
  - destruct (json_value _ s) as [[x r]|] eqn:J; [|easy]. destruct (skip_space_is r) as (b & E & B & _). intros H.
    destruct (skip_space r); [|easy]. injection H as <-. rewrite app_nil_r in E. subst r. apply json_value_sound in J as (a & t & -> & A & T).
    now exists a, t, b.
  - intros (a & t & b & -> & A & T & B). rewrite (proj1 json_complete v t T); [|easy| |rewrite !app_length; lia].
    + rewrite <- (app_nil_r b). now rewrite skip_space_app.
    + rewrite <- (app_nil_r b). now apply space_stop.
Qed.

(** ** What is written *)
Lemma escape_text : forall c, char_text c (json_escape c).
Proof.
  intros c. unfold json_escape, QT, BS. destruct (N.eqb_spec c 34) as [->|?]; [apply ct_short; cbn [In escapes]; tauto|].
  destruct (N.eqb_spec c 92) as [->|?]; [apply ct_short; cbn [In escapes]; tauto|].
  destruct (N.eqb_spec c 8) as [->|?]; [apply ct_short; cbn [In escapes]; tauto|].
  destruct (N.eqb_spec c 9) as [->|?]; [apply ct_short; cbn [In escapes]; tauto|].
  destruct (N.eqb_spec c 10) as [->|?]; [apply ct_short; cbn [In escapes]; tauto|].
  destruct (N.eqb_spec c 12) as [->|?]; [apply ct_short; cbn [In escapes]; tauto|].
  destruct (N.eqb_spec c 13) as [->|?]; [apply ct_short; cbn [In escapes]; tauto|].
  destruct (N.ltb_spec c 32) as [L|L]; [|now apply ct_plain].
  change [92%N; 117%N; 48%N; 48%N; hex_digit (c / 16); hex_digit (c mod 16)] with ([92; 117]%N ++ [48%N; 48%N; hex_digit (c / 16); hex_digit (c mod 16)]).
  apply ct_hex; [|lia]. pose proof (N.div_mod c 16 ltac:(lia)) as E. pose proof (N.mod_lt c 16 ltac:(lia)) as M.
  assert (Q : c = (4096 * 0 + 256 * 0 + 16 * (c / 16) + c mod 16)%N) by lia. rewrite Q at 1.
  assert (D : (c / 16 < 2)%N) by lia.
  constructor; [left; split; [lia|reflexivity]|left; split; [lia|reflexivity]| |]; unfold hex_is, hex_digit.
  - destruct (N.ltb_spec (c / 16) 10); lia.
  - destruct (N.ltb_spec (c mod 16) 10); lia.
Qed.
Lemma quoted_text : forall s, string_text s (quoted s).
Proof.
  intros s. unfold quoted. rewrite flat_map_concat_map. constructor. induction s as [|c s IH]; constructor; [apply escape_text|easy].
Qed.
Lemma space_newline : forall n, space (newline n).
Proof. intros n. unfold newline. constructor; [cbn [In]; tauto|]. apply Forall_forall. intros c I. apply repeat_spec in I as ->. now left. Qed.
Lemma arr_ok : forall l (w : json -> str) pre post, space pre -> space post -> l <> [] -> Forall (fun v => json_text v (w v)) l ->
  array_text l (commas (map (fun v => pre ++ w v) l) ++ post).
Proof.
  intros l w pre post A B N F. induction F as [|v l T F IH]; [easy|]. destruct l as [|x l].
  - cbn [map commas]. rewrite <- app_assoc. now constructor.
  - change (commas (map (fun v => pre ++ w v) (v :: x :: l))) with ((pre ++ w v) ++ [44%N] ++ commas (map (fun v => pre ++ w v) (x :: l))).
    rewrite <- !app_assoc. apply (at_more v (x :: l) pre (w v) [] (commas (map (fun v => pre ++ w v) (x :: l)) ++ post)); [easy|easy|constructor|easy|now apply IH].
Qed.
Lemma obj_ok : forall m (w : json -> str) pre mid post, space pre -> space mid -> space post -> m <> [] -> Forall (fun e => json_text (snd e) (w (snd e))) m ->
  object_text m (commas (map (fun e => pre ++ quoted (fst e) ++ [58%N] ++ mid ++ w (snd e)) m) ++ post).
Proof.
  intros m w pre mid post A C B N F. induction F as [|[k v] m T F IH]; [easy|]. cbn [snd] in T. destruct m as [|x m].
  - cbn [map commas fst snd]. rewrite <- !app_assoc. apply (ot_one k v pre (quoted k) [] mid (w v) post); try easy; [apply quoted_text|constructor].
  - change (commas (map (fun e => pre ++ quoted (fst e) ++ [58%N] ++ mid ++ w (snd e)) ((k, v) :: x :: m)))
      with ((pre ++ quoted k ++ [58%N] ++ mid ++ w v) ++ [44%N] ++ commas (map (fun e => pre ++ quoted (fst e) ++ [58%N] ++ mid ++ w (snd e)) (x :: m))).
    rewrite <- !app_assoc. cbn [app].
    apply (ot_more k v (x :: m) pre (quoted k) [] mid (w v) [] (commas (map (fun e => pre ++ quoted (fst e) ++ [58%N] ++ mid ++ w (snd e)) (x :: m)) ++ post));
      try easy; [apply quoted_text|constructor|constructor|now apply IH].
Qed.
Section JsonInd.
  Variable P : json -> Prop.
  Hypothesis (Hn : P JNull) (Hb : forall b, P (JBool b)) (Hm : forall t, P (JNum t)) (Hs : forall s, P (JStr s)).
  Hypothesis (Ha : forall l, Forall P l -> P (JArr l)) (Ho : forall m, Forall (fun e => P (snd e)) m -> P (JObj m)).
  Fixpoint json_deep_ind (v : json) : P v :=
    match v with
    | JNull => Hn | JBool b => Hb b | JNum t => Hm t | JStr s => Hs s
    | JArr l => Ha l ((fix go l := match l return Forall P l with [] => Forall_nil _ | x :: r => Forall_cons _ (json_deep_ind x) (go r) end) l)
    | JObj m => Ho m ((fix go m := match m return Forall (fun e => P (snd e)) m with [] => Forall_nil _ | x :: r => Forall_cons _ (json_deep_ind (snd x)) (go r) end) m)
    end.
End JsonInd.
Lemma numbers_list : forall l, fold_right (fun x Q => numbers_ok x /\ Q) True l -> Forall numbers_ok l.
Proof. induction l as [|x l IH]; [constructor|]. intros [A B]. constructor; auto. Qed.
Lemma numbers_members : forall m, fold_right (fun (e : str * json) Q => numbers_ok (snd e) /\ Q) True m -> Forall (fun e => numbers_ok (snd e)) m.
Proof. induction m as [|x l IH]; [constructor|]. intros [A B]. constructor; auto. Qed.
Lemma compact_text : forall v, numbers_ok v -> json_text v (json_compact v).
Proof.
  induction v as [|b|t|s|l IH|m IH] using json_deep_ind; intros K; cbn [json_compact].
  - constructor.
  - destruct b; constructor.
  - now constructor.
  - constructor. apply quoted_text.
  - constructor. destruct l as [|x l]; [do 2 constructor|]. rewrite <- (app_nil_r (commas _)).
    apply (arr_ok (x :: l) json_compact [] []); try easy; try constructor.
    + inversion IH; subst. destruct K. auto.
    + destruct K as [_ K]. apply numbers_list in K. inversion IH as [|? ? _ F]; subst. rewrite Forall_forall in *. auto.
  - constructor. destruct m as [|x m]; [do 2 constructor|]. rewrite <- (app_nil_r (commas _)).
    apply (obj_ok (x :: m) json_compact [] [] []); try easy; try constructor.
    + inversion IH; subst. destruct K. auto.
    + destruct K as [_ K]. apply numbers_members in K. inversion IH as [|? ? _ F]; subst. rewrite Forall_forall in *. auto.
Qed.
Lemma pretty_text : forall v n, numbers_ok v -> json_text v (json_pretty n v).
Proof.
  induction v as [|b|t|s|l IH|m IH] using json_deep_ind; intros n K; cbn [json_pretty].
  - constructor.
  - destruct b; constructor.
  - now constructor.
  - constructor. apply quoted_text.
  - destruct l as [|x l]; [apply (jt_arr [] []); do 2 constructor|]. rewrite (app_assoc (commas _) (newline n)). constructor.
    apply (arr_ok (x :: l) (json_pretty (S n)) (newline (S n)) (newline n)); try apply space_newline; [easy|].
    destruct K as [K1 K]. apply numbers_list in K. inversion IH as [|? ? I1 F]; subst. constructor; [auto|]. rewrite Forall_forall in *. auto.
  - destruct m as [|x m]; [apply (jt_obj [] []); do 2 constructor|]. rewrite (app_assoc (commas _) (newline n)). constructor.
    apply (obj_ok (x :: m) (json_pretty (S n)) (newline (S n)) [32%N] (newline n)); try apply space_newline; [repeat constructor|easy|].
    destruct K as [K1 K]. apply numbers_members in K. inversion IH as [|? ? I1 F]; subst. constructor; [auto|]. rewrite Forall_forall in *. auto.
Qed.
Lemma ser_numbers : forall c, numbers_ok (ser_cal c).
Proof.
  assert (L : forall A (f : A -> json) l, (forall x, In x l -> numbers_ok (f x)) -> numbers_ok (JArr (map f l))).
  { intros A f l H. cbn [numbers_ok]. induction l as [|x l IH]; [easy|]. cbn [map fold_right]. split; [apply H; now left|]. apply IH. intros y I. apply H. now right. }
  assert (Q : forall q, numbers_ok (ser_param q)) by (intros [k [v|]]; cbn; tauto).
  assert (P : forall p, numbers_ok (ser_prop p)).
  { intros p. unfold ser_prop. cbn [numbers_ok fold_right snd]. split; [easy|]. split; [easy|]. split; [|easy]. apply (L _ ser_param). intros; apply Q. }
  assert (C : forall n c, comp_depth c <= n -> numbers_ok (ser_comp c)).
  { induction n as [|n IH]; intros [k ps cs] D; cbn [comp_depth] in D; [lia|]. cbn [ser_comp]. cbn [numbers_ok fold_right snd]. split; [easy|].
    split; [apply (L _ ser_prop); intros; apply P|]. split; [|easy]. apply (L _ ser_comp). intros x I. apply IH. apply le_S_n in D.
    revert D I. clear. induction cs as [|y cs IH]; [easy|]. cbn [fold_right]. intros D [->|I]; [lia|]. apply IH; [lia|easy]. }
  intros c. unfold ser_cal. cbn [numbers_ok fold_right snd]. split; [apply (L _ ser_prop); intros; apply P|]. split; [|easy].
  apply (L _ ser_comp). intros x _. now apply (C (comp_depth x)).
Qed.
Lemma json_text_document : forall v t, json_text v t -> json_document v t.
Proof. intros v t T. exists [], t, []. rewrite app_nil_r. split; [easy|]. split; [constructor|]. split; [easy|constructor]. Qed.
Lemma json_one : forall v w s, json_document v s -> json_document w s -> v = w.
Proof. intros v w s V W. apply json_read_spec in V, W. rewrite V in W. now injection W. Qed.

(** No control characters. *)
Lemma escape_visible : forall c, Forall (fun x => (32 <= x)%N) (json_escape c).
Proof.
  intros c. unfold json_escape, QT, BS. repeat (match goal with |- context [if ?b then _ else _] => destruct b eqn:? end; [repeat constructor; unfold hex_digit; repeat match goal with |- context [if ?b then _ else _] => destruct b end; lia|]).
  repeat constructor. lia.
Qed.
Lemma quoted_visible : forall s, Forall (fun x => (32 <= x)%N) (quoted s).
Proof.
  intros s. unfold quoted, QT. constructor; [lia|]. apply Forall_app. split; [|repeat constructor; lia].
  induction s as [|c s IH]; [constructor|]. cbn [flat_map]. apply Forall_app. split; [apply escape_visible|easy].
Qed.
Lemma commas_all : forall (P : char -> Prop) l, P 44%N -> Forall (Forall P) l -> Forall P (commas l).
Proof.
  intros P l C F. induction F as [|s l S F IH]; [constructor|]. cbn [commas]. destruct l as [|x l]; [easy|]. apply Forall_app. split; [easy|]. constructor; [easy|exact IH].
Qed.
Lemma number_visible : forall t, number_text t -> Forall (fun x => (32 <= x)%N) t.
Proof.
  intros t N. apply number_chars in N as [F _]. rewrite forallb_forall in F. apply Forall_forall. intros c I. apply F in I.
  unfold is_number_char, is_digit, in_range in I. lia.
Qed.
Lemma literal_visible : forall b, Forall (fun x => (32 <= x)%N) (literal b).
Proof. intros [|]; apply Forall_forall; intros c I; cbn in I; lia. Qed.
Lemma compact_visible : forall v, numbers_ok v -> Forall (fun x => (32 <= x)%N) (json_compact v).
Proof.
  induction v as [|b|t|s|l IH|m IH] using json_deep_ind; intros K; cbn [json_compact].
  - apply Forall_forall; intros c I; cbn in I; lia.
  - apply literal_visible.
  - now apply number_visible.
  - apply quoted_visible.
  - constructor; [lia|]. apply Forall_app. split; [|repeat constructor; lia]. apply commas_all; [lia|]. rewrite Forall_map. apply numbers_list in K.
    rewrite Forall_forall in *. auto.
  - constructor; [lia|]. apply Forall_app. split; [|repeat constructor; lia]. apply commas_all; [lia|]. rewrite Forall_map. apply numbers_members in K.
    rewrite Forall_forall in *. intros e I. apply Forall_app. split; [apply quoted_visible|]. constructor; [lia|]. apply IH; [easy|]. now apply K.
Qed.
Lemma newline_chars : forall n, Forall (fun x => (x = 10 \/ 32 <= x)%N) (newline n).
Proof. intros n. constructor; [now left|]. apply Forall_forall. intros c I. apply repeat_spec in I as ->. lia. Qed.
Lemma pretty_visible : forall v n, numbers_ok v -> Forall (fun x => (x = 10 \/ 32 <= x)%N) (json_pretty n v).
Proof.
  assert (W : forall s, Forall (fun x => (32 <= x)%N) s -> Forall (fun x => (x = 10 \/ 32 <= x)%N) s).
  { intros s. apply Forall_impl. auto. }
  induction v as [|b|t|s|l IH|m IH] using json_deep_ind; intros n K; cbn [json_pretty].
  - apply Forall_forall; intros c I; cbn in I; lia.
  - apply W, literal_visible.
  - now apply W, number_visible.
  - apply W, quoted_visible.
  - apply numbers_list in K. destruct l as [|y l]; [repeat constructor; lia|]. constructor; [lia|]. apply Forall_app. split.
    + apply commas_all; [lia|]. rewrite Forall_map. rewrite Forall_forall in *. intros x I. apply Forall_app. split; [apply newline_chars|]. auto.
    + apply Forall_app. split; [apply newline_chars|]. repeat constructor; lia.
  - apply numbers_members in K. destruct m as [|y m]; [repeat constructor; lia|]. constructor; [lia|]. apply Forall_app. split.
    + apply commas_all; [lia|]. rewrite Forall_map. rewrite Forall_forall in *. intros e I. apply Forall_app. split; [apply newline_chars|].
      apply Forall_app. split; [apply W, quoted_visible|]. constructor; [lia|]. constructor; [lia|]. apply IH; [easy|]. now apply K.
    + apply Forall_app. split; [apply newline_chars|]. repeat constructor; lia.
Qed.

(** ** Layout *)
Definition squeezes (t u : str) : Prop := forall r, squeeze Outside (t ++ r) = u ++ squeeze Outside r.
Lemma squeezes_app : forall a b c d, squeezes a b -> squeezes c d -> squeezes (a ++ c) (b ++ d).
Proof. intros a b c d H K r. now rewrite <- app_assoc, H, K, app_assoc. Qed.
Lemma squeezes_escape : forall c r, squeeze Inside (json_escape c ++ r) = json_escape c ++ squeeze Inside r.
Proof.
  intros c r. pose proof (escape_text c) as T. remember (json_escape c) as t eqn:E. destruct T as [d L Q B|e d I|n h F L|a b g h G F A B].
  - cbn [app squeeze]. destruct (N.eqb_spec d 34); [easy|]. destruct (N.eqb_spec d 92); [easy|]. reflexivity.
  - reflexivity.
  - assert (X : forall x, hex_is x 34%N \/ hex_is x 92%N -> False) by (unfold hex_is; lia).
    inversion F as [x y z w a b c' d A B C D]; subst. cbn [app squeeze]. change (92 =? 34)%N with false. change (92 =? 92)%N with true. cbv iota.
    assert (Z : forall x k, hex_is x k -> (k =? 34)%N = false /\ (k =? 92)%N = false).
    { intros x' k K. split; apply N.eqb_neq; intros ->; apply (X x'); tauto. }
    destruct (Z _ _ A) as [-> ->], (Z _ _ B) as [-> ->], (Z _ _ C) as [-> ->], (Z _ _ D) as [-> ->]. reflexivity.
  - exfalso. apply (f_equal (@length N)) in E. inversion G; inversion F; subst. cbn [length app] in E. revert E.
    unfold json_escape. repeat match goal with |- context [if ?b then _ else _] => destruct b end; discriminate.
Qed.
Lemma squeezes_quoted : forall s, squeezes (quoted s) (quoted s).
Proof.
  intros s r. unfold quoted. rewrite <- !app_assoc. cbn [app squeeze]. change (squeeze (if (QT =? 34)%N then Inside else Outside)) with (squeeze Inside).
  change ((QT =? 32)%N || (QT =? 10)%N) with false. cbv iota. f_equal. induction s as [|c s IH]; cbn [flat_map app].
  - reflexivity.
  - now rewrite <- !app_assoc, squeezes_escape, IH.
Qed.
Lemma squeezes_plain : forall t, Forall (fun c => c <> 32 /\ c <> 10 /\ c <> 34)%N t -> squeezes t t.
Proof.
  intros t F r. induction F as [|c t C F IH]; [easy|]. cbn [app squeeze]. replace ((c =? 32) || (c =? 10))%N with false by lia. replace (c =? 34)%N with false by lia.
  now rewrite IH.
Qed.
Lemma squeezes_space : forall t, Forall (fun c => c = 32 \/ c = 10)%N t -> squeezes t [].
Proof.
  intros t F r. induction F as [|c t C F IH]; [easy|]. cbn [app squeeze]. now replace ((c =? 32) || (c =? 10))%N with true by lia.
Qed.
Lemma squeezes_newline : forall n, squeezes (newline n) [].
Proof.
  intros n. apply squeezes_space. unfold newline. constructor; [now right|]. apply Forall_forall. intros c I. apply repeat_spec in I. now left.
Qed.
Lemma squeezes_commas : forall A (f g : A -> str) l, Forall (fun x => squeezes (f x) (g x)) l -> squeezes (commas (map f l)) (commas (map g l)).
Proof.
  intros A f g l F. induction F as [|x l X F IH]; [intros r; reflexivity|]. destruct l as [|y l]; [exact X|].
  change (commas (map f (x :: y :: l))) with (f x ++ [44%N] ++ commas (map f (y :: l))). change (commas (map g (x :: y :: l))) with (g x ++ [44%N] ++ commas (map g (y :: l))).
  apply squeezes_app; [easy|]. apply squeezes_app; [intros r; reflexivity|easy].
Qed.
Lemma squeezes_number : forall t, number_text t -> squeezes t t.
Proof.
  intros t T. apply number_chars in T as [F _]. apply squeezes_plain. apply Forall_forall. intros c I. rewrite forallb_forall in F. apply F in I.
  unfold is_number_char, is_digit, in_range in I. lia.
Qed.
Lemma squeezes_pretty : forall v n, numbers_ok v -> squeezes (json_pretty n v) (json_compact v).
Proof.
  induction v as [|b|t|s|l IH|m IH] using json_deep_ind; intros n K; cbn [json_pretty json_compact].
  - intros r; reflexivity.
  - destruct b; intros r; reflexivity.
  - now apply squeezes_number.
  - apply squeezes_quoted.
  - destruct l as [|x l]; [intros r; reflexivity|]. apply numbers_list in K. apply squeezes_app; [intros r; reflexivity|].
    apply squeezes_app; [|change [93%N] with ([] ++ [93%N]) at 2; apply squeezes_app; [apply squeezes_newline|intros r; reflexivity]].
    apply squeezes_commas. rewrite Forall_forall in *. intros y I. change (json_compact y) with ([] ++ json_compact y). apply squeezes_app; [apply squeezes_newline|auto].
  - destruct m as [|x m]; [intros r; reflexivity|]. apply numbers_members in K. apply squeezes_app; [intros r; reflexivity|].
    apply squeezes_app; [|change [125%N] with ([] ++ [125%N]) at 2; apply squeezes_app; [apply squeezes_newline|intros r; reflexivity]].
    apply squeezes_commas. rewrite Forall_forall in *. intros y I.
    change (quoted (fst y) ++ [58%N] ++ json_compact (snd y)) with ([] ++ quoted (fst y) ++ [58%N] ++ json_compact (snd y)).
    apply squeezes_app; [apply squeezes_newline|]. apply squeezes_app; [apply squeezes_quoted|]. apply squeezes_app; [intros r; reflexivity|auto].
Qed.
Lemma squeezes_compact : forall v, numbers_ok v -> squeezes (json_compact v) (json_compact v).
Proof.
  induction v as [|b|t|s|l IH|m IH] using json_deep_ind; intros K; cbn [json_compact].
  - intros r; reflexivity.
  - destruct b; intros r; reflexivity.
  - now apply squeezes_number.
  - apply squeezes_quoted.
  - apply numbers_list in K. apply squeezes_app; [intros r; reflexivity|]. apply squeezes_app; [|intros r; reflexivity].
    apply squeezes_commas. rewrite Forall_forall in *. auto.
  - apply numbers_members in K. apply squeezes_app; [intros r; reflexivity|]. apply squeezes_app; [|intros r; reflexivity].
    apply squeezes_commas. rewrite Forall_forall in *. intros y I. apply squeezes_app; [apply squeezes_quoted|]. apply squeezes_app; [intros r; reflexivity|auto].
Qed.
Lemma lines_app : forall o p q d e f a b, lines_at o d a e p -> lines_at p e b f q -> lines_at o d (a ++ b) f q.
Proof. intros o p q d e f a b H K. induction H as [|o p d e g l ls L O H IH]; [easy|]. cbn [app]. now apply (ls_more _ _ _ e); [| |apply IH]. Qed.
Lemma lines_commas : forall A (f : A -> str) n l, l <> [] ->
  Forall (fun x => forall c, comma_part c -> exists ls, (forall o, lines_at o n ls n false) /\ f x ++ c = flat_map (cons 10%N) ls) l ->
  exists ls, (forall o, lines_at o n ls n false) /\ commas (map f l) = flat_map (cons 10%N) ls.
Proof.
  intros A f n l N F. induction F as [|x l X F IH]; [easy|]. destruct l as [|y l].
  - destruct (X [] (or_introl eq_refl)) as (ls & L & E). exists ls. split; [easy|]. now rewrite app_nil_r in E.
  - destruct (X [44%N] (or_intror eq_refl)) as (ls & L & E). destruct IH as (ls' & L' & E'); [easy|]. exists (ls ++ ls'). split; [intros o; now apply (lines_app _ false _ _ n)|].
    change (commas (map f (x :: y :: l))) with (f x ++ [44%N] ++ commas (map f (y :: l))). now rewrite app_assoc, E, E', flat_map_app.
Qed.
Lemma lines_pretty : forall v n p c, numbers_ok v -> key_part p -> comma_part c ->
  exists ls, (forall o, lines_at o n ls n false) /\ newline n ++ p ++ json_pretty n v ++ c = flat_map (cons 10%N) ls.
Proof.
  assert (One : forall b n p c, one_value b -> key_part p -> comma_part c ->
    exists ls, (forall o, lines_at o n ls n false) /\ newline n ++ p ++ b ++ c = flat_map (cons 10%N) ls).
  { intros b n p c B P C. exists [repeat 32%N (2 * n) ++ p ++ b ++ c]. split; [intros o; apply (ls_more _ _ _ n); [now apply la_value|easy|rewrite Nat.ltb_irrefl; constructor]|].
    cbn [flat_map]. now rewrite app_nil_r. }
  assert (Many : forall o q n p c t, In o [lit "["; lit "{"] -> In q [lit "]"; lit "}"] -> key_part p -> comma_part c ->
    (exists ls, (forall o, lines_at o (S n) ls (S n) false) /\ t = flat_map (cons 10%N) ls) ->
    exists ls, (forall o, lines_at o n ls n false) /\ newline n ++ p ++ (o ++ t ++ newline n ++ q) ++ c = flat_map (cons 10%N) ls).
  { intros o q n p c t O Q P C (ls & L & ->). exists ((repeat 32%N (2 * n) ++ p ++ o) :: ls ++ [repeat 32%N (2 * n) ++ q ++ c]). split.
    - intros w. apply (ls_more _ _ _ (1 + n)); [now apply la_open|lia|]. apply (lines_app _ false _ _ (1 + n)); [easy|]. apply (ls_more _ _ _ n); [now apply la_close|easy|].
      destruct (Nat.ltb_spec (1 + n) n) as [X|_]; [lia|constructor].
    - cbn [flat_map]. rewrite flat_map_app. cbn [flat_map]. unfold newline. rewrite app_nil_r. cbn [app]. rewrite <- !app_assoc. cbn [app]. now rewrite <- !app_assoc. }
  induction v as [|b|t|s|l IH|m IH] using json_deep_ind; intros n p c K P C; cbn [json_pretty].
  - apply One; try easy. left. cbn [In]. tauto.
  - apply One; try easy. left. destruct b; cbn [In literal]; tauto.
  - apply One; try easy. right. now left.
  - apply One; try easy. right. right. exists s. apply quoted_text.
  - destruct l as [|x l]; [apply One; try easy; left; cbn [In]; tauto|]. apply numbers_list in K.
    apply (Many [91%N] [93%N]); try easy; try (cbn [In]; tauto). apply lines_commas; [easy|]. rewrite Forall_forall in *. intros y I c' C'.
    destruct (IH y I (S n) [] c' (K y I) (or_introl eq_refl) C') as (ls & L & E). exists ls. split; [easy|]. rewrite <- E. cbn [app]. now rewrite <- app_assoc.
  - destruct m as [|x m]; [apply One; try easy; left; cbn [In]; tauto|]. apply numbers_members in K.
    apply (Many [123%N] [125%N]); try easy; try (cbn [In]; tauto). apply lines_commas; [easy|]. rewrite Forall_forall in *. intros y I c' C'.
    destruct (IH y I (S n) (quoted (fst y) ++ [58; 32]%N) c' (K y I)) as (ls & L & E); [right; exists (fst y), (quoted (fst y)); split; [apply quoted_text|easy]|easy|].
    exists ls. split; [easy|]. rewrite <- E. now rewrite <- !app_assoc.
Qed.
Lemma pretty_indented : forall v, numbers_ok v -> indented (json_pretty 0 v).
Proof.
  intros v K. destruct (lines_pretty v 0 [] [] K) as (ls & L & E); [now left|now left|]. rewrite app_nil_r in E. destruct ls as [|l ls]; [discriminate E|].
  exists l, ls. split; [apply L|]. cbn [app newline repeat Nat.mul flat_map] in E. now injection E as ->.
Qed.
