(** Borrowed and copied strings. *)
From Verif Require Import Str StrFacts Spec Text ValueTypes Property Chrono DateTime Component Calendar Nom Parser SpecDoc SpecRound
  ParserProofs TotalProofs ReadProofs AcceptProofs BackProofs ReprintProofs ZeroCopy SpecCopy.
From Verif Require LfProofs FoldProofs.
From Coq Require Import ZifyBool ZifyNat ZifyN.

(** ** [unescape_text] *)

Lemma contains_at : forall p s, contains p s = true -> exists a b, s = a ++ p ++ b.
Proof.
  intros p. induction s as [|c s IH]; cbn [contains]; intros H.
  - rewrite orb_false_r in H. apply starts_with_spec in H as [r ->]. now exists [], r.
  - apply orb_true_iff in H as [H|H]; [apply starts_with_spec in H as [r ->]; now exists [], r|].
    destruct (IH H) as (a & b & ->). now exists (c :: a), b.
Qed.
Definition guard (s : str) : bool :=
  contains [BSL; BSL] s || contains [BSL; COMMA] s || contains [BSL; SEMI] s
     || contains [BSL; COLON] s || contains [BSL; 78%N] s || contains [BSL; 110%N] s.
Lemma guard_spec : forall s, guard s = true <-> escapes s.
Proof.
  intros s. split.
  - intros H. unfold guard in H. repeat (apply orb_true_iff in H as [H|H]); apply contains_at in H as (a & b & ->);
      eexists a, _, b; (split; [reflexivity|]); vm_compute; auto 10.
  - intros H. apply escapes_contains in H as (d & I & C). unfold guard.
    destruct I as [<-|[<-|[<-|[<-|[<-|[<-|[]]]]]]]; rewrite C, ?orb_true_r; reflexivity.
Qed.
Lemma cow_unescape_copied : forall c, escapes (cow_str c) -> cow_unescape c = Owned (unescape_text (cow_str c)).
Proof.
  intros c H. apply guard_spec in H. unfold cow_unescape, unescape_text. fold (guard (cow_str c)). now rewrite H.
Qed.
Lemma cow_unescape_kept : forall c, ~ escapes (cow_str c) -> cow_unescape c = c.
Proof.
  intros c H. unfold cow_unescape. fold (guard (cow_str c)). destruct (guard (cow_str c)) eqn:G; [|easy]. now apply guard_spec in G.
Qed.
Lemma escapes_dec : forall s, escapes s \/ ~ escapes s.
Proof. intros s. destruct (guard s) eqn:G; [left; now apply guard_spec|right; intros H; apply guard_spec in H; congruence]. Qed.
Lemma cow_unescape_text : forall c, cow_str (cow_unescape c) = unescape_text (cow_str c).
Proof.
  intros c. destruct (escapes_dec (cow_str c)) as [H|H].
  - now rewrite cow_unescape_copied.
  - rewrite cow_unescape_kept by easy. symmetry. now apply LfProofs.unescape_stable.
Qed.

Section Same.
  Context {U : Unicode} {E : Type} {PE : PErr E}.

  (** ** The same results *)

  Definition sim {A B} (R : A -> B -> Prop) (p : parser E A) (q : parser E B) : Prop :=
    forall i, match p i, q i with
              | IOk r a, IOk s b => r = s /\ R a b
              | IErr e, IErr f => e = f
              | IFail e, IFail f => e = f
              | IFuel, IFuel => True
              | _, _ => False
              end.
  Lemma sim_refl : forall A (p : parser E A), sim eq p p.
  Proof. intros A p i. now destruct (p i). Qed.
  Lemma sim_weak : forall A B (R S : A -> B -> Prop) p q, (forall a b, R a b -> S a b) -> sim R p q -> sim S p q.
  Proof. intros A B R S p q H G i. specialize (G i). destruct (p i), (q i); try easy. destruct G. auto. Qed.
  Lemma sim_bind : forall A B C D (R : A -> B -> Prop) (S : C -> D -> Prop) p q f g, sim R p q ->
    (forall a b, R a b -> sim S (f a) (g b)) -> sim S (pbind p f) (pbind q g).
  Proof.
    intros A B C D R S p q f g H G i. unfold pbind. specialize (H i). destruct (p i), (q i); try easy. destruct H as [-> H].
    exact (G _ _ H _).
  Qed.
  Lemma sim_ret : forall A B (R : A -> B -> Prop) a b, R a b -> sim R (pret a) (pret b).
  Proof. intros A B R a b H i. easy. Qed.
  Lemma sim_map : forall A B C D (R : A -> B -> Prop) (S : C -> D -> Prop) p q f g, sim R p q ->
    (forall a b, R a b -> S (f a) (g b)) -> sim S (pmap f p) (pmap g q).
  Proof. intros. eapply sim_bind; [eassumption|]. intros. apply sim_ret. auto. Qed.
  Lemma sim_preceded : forall A B C (R : A -> B -> Prop) (p : parser E C) q s, sim R q s -> sim R (preceded p q) (preceded p s).
  Proof. intros. eapply sim_bind; [apply sim_refl|]. now intros. Qed.
  Lemma sim_pair : forall A B C D (R : A -> B -> Prop) (S : C -> D -> Prop) p q f g, sim R p q -> sim S f g ->
    sim (fun x y => R (fst x) (fst y) /\ S (snd x) (snd y)) (pair p f) (pair q g).
  Proof. intros. eapply sim_bind; [eassumption|]. intros. eapply sim_bind; [eassumption|]. intros. now apply sim_ret. Qed.
  Lemma sim_separated : forall A B C D X (R : A -> B -> Prop) (S : C -> D -> Prop) p q f g (s : parser E X), sim R p q -> sim S f g ->
    sim (fun x y => R (fst x) (fst y) /\ S (snd x) (snd y)) (separated_pair p s f) (separated_pair q s g).
  Proof.
    intros. eapply sim_bind; [eassumption|]. intros. eapply sim_bind; [apply sim_refl|]. intros.
    eapply sim_bind; [eassumption|]. intros. now apply sim_ret.
  Qed.
  Lemma sim_delimited : forall A B X Y (R : A -> B -> Prop) p q (s : parser E X) (t : parser E Y), sim R p q -> sim R (delimited s p t) (delimited s q t).
  Proof.
    intros. eapply sim_bind; [apply sim_refl|]. intros. eapply sim_bind; [eassumption|]. intros.
    eapply sim_bind; [apply sim_refl|]. intros. now apply sim_ret.
  Qed.
  Lemma sim_alt2 : forall A B (R : A -> B -> Prop) p q f g, sim R p q -> sim R f g -> sim R (alt2 p f) (alt2 q g).
  Proof.
    intros A B R p q f g H G i. unfold alt2. specialize (H i). specialize (G i). destruct (p i), (q i); try easy.
    destruct (f i), (g i); try easy. now subst.
  Qed.
  Lemma sim_alt3 : forall A B (R : A -> B -> Prop) p q f g x y, sim R p q -> sim R f g -> sim R x y -> sim R (alt3 p f x) (alt3 q g y).
  Proof.
    intros A B R p q f g x y H G K i. unfold alt3. specialize (H i). specialize (G i). specialize (K i). destruct (p i), (q i); try easy.
    destruct (f i), (g i); try easy. destruct (x i), (y i); try easy. now subst.
  Qed.
  Lemma sim_opt : forall A B (R : A -> B -> Prop) (S : option A -> option B -> Prop) p q, sim R p q ->
    (forall a b, R a b -> S (Some a) (Some b)) -> S None None -> sim S (opt p) (opt q).
  Proof. intros A B R S p q H H1 H2 i. unfold opt. specialize (H i). destruct (p i), (q i); try easy. destruct H. auto. Qed.
  Lemma sim_cut : forall A B (R : A -> B -> Prop) p q, sim R p q -> sim R (cut p) (cut q).
  Proof. intros A B R p q H i. unfold cut. specialize (H i). now destruct (p i), (q i). Qed.
  Lemma sim_context : forall A B (R : A -> B -> Prop) c p q, sim R p q -> sim R (context c p) (context c q).
  Proof. intros A B R c p q H i. unfold context. specialize (H i). destruct (p i), (q i); try easy; now subst. Qed.
  Lemma sim_all : forall A B (R : A -> B -> Prop) p q, sim R p q -> sim R (all_consuming p) (all_consuming q).
  Proof.
    intros A B R p q H i. unfold all_consuming. specialize (H i). destruct (p i) as [r a|e|e|], (q i) as [s b|f|f|]; try easy.
    destruct H as [-> H]. now destruct s.
  Qed.
  Lemma sim_many0 : forall A B (R : A -> B -> Prop) p q f, sim R p q -> sim (Forall2 R) (many0 f p) (many0 f q).
  Proof.
    intros A B R p q f H. induction f as [|f IH]; intros i; [easy|]. cbn [many0]. specialize (H i).
    destruct (p i) as [r a|e|e|], (q i) as [s b|f'|f'|]; try easy. destruct H as [-> H].
    destruct (_ =? _); [easy|]. specialize (IH s). destruct (many0 f p s), (many0 f q s); try easy.
    destruct IH as [-> IH]. split; [easy|now constructor].
  Qed.
  Lemma sim_many0' : forall A B (R : A -> B -> Prop) p q, sim R p q ->
    sim (Forall2 R) (fun i => many0 (S (length i)) p i) (fun i => many0 (S (length i)) q i).
  Proof. intros A B R p q H i. now apply sim_many0. Qed.
  Lemma sim_till : forall A B X (R : A -> B -> Prop) p q (g : parser E X) f, sim R p q ->
    sim (fun x y => Forall2 R (fst x) (fst y)) (many_till f p g) (many_till f q g).
  Proof.
    intros A B X R p q g f H. induction f as [|f IH]; intros i; [easy|]. cbn [many_till]. destruct (g i); try easy; [split; [easy|constructor]|].
    specialize (H i). destruct (p i) as [r a|e'|e'|], (q i) as [s b|f'|f'|]; try easy; [|now subst]. destruct H as [-> H].
    destruct (_ =? _); [easy|]. specialize (IH s). destruct (many_till f p g s) as [? [? ?]|?|?|], (many_till f q g s) as [? [? ?]|?|?|]; try easy.
    destruct IH as [-> IH]. split; [easy|]. now constructor.
  Qed.

  Definition says (c : cow) (s : str) : Prop := cow_str c = s.
  (** Parsers that give what they take. *)
  Definition takes (p : parser E str) : Prop := forall i r a, p i = IOk r a -> i = a ++ r.
  Lemma takes_while : forall f, takes (take_while f).
  Proof. intros f i r a. unfold take_while. destruct (span f i) as [x y] eqn:S. intros H. injection H as -> ->. now apply span_spec in S as [-> _]. Qed.
  Lemma takes_while1 : forall k f, takes (take_while1 k f).
  Proof.
    intros k f i r a. unfold take_while1. destruct (span f i) as [x y] eqn:S. apply span_spec in S as [-> _].
    destruct x; [easy|]. intros H. now injection H as -> <-.
  Qed.
  Lemma takes_until : forall t, takes (take_until t).
  Proof.
    intros t i r a. unfold take_until. destruct (find_sub t i) as [[x y]|] eqn:S; [|easy]. intros H. injection H as -> ->.
    now apply find_sub_some in S as [-> _].
  Qed.
  Lemma takes_eof : takes eof.
  Proof. intros [|c i] r a H; [now injection H as <- <-|easy]. Qed.
  Lemma takes_key : takes valid_key_sequence.
  Proof. apply takes_while. Qed.
  Lemma takes_property_key : takes property_key.
  Proof. intros i r a. unfold property_key. destruct (_ || _); [easy|]. apply takes_key. Qed.
  Lemma sim_borrowed : forall p, takes p -> sim says (borrowed p) p.
  Proof.
    intros p H i. unfold borrowed. specialize (H i). destruct (p i) as [r a|e|e|]; try easy. split; [easy|].
    unfold says. cbn [cow_str]. rewrite (H _ _ eq_refl). apply firstn_app_exact.
  Qed.

  Definition param_says (q : zparam) (s : pparam) : Prop := param_text q = s.
  Definition prop_says (p : zprop) (s : pprop) : Prop := prop_text p = s.
  Definition comp_says (c : zcomp) (s : pcomp) : Prop := comp_text c = s.
  Lemma sim_param_value : sim says zparam_value param_value.
  Proof.
    apply sim_alt3; [apply sim_borrowed, takes_eof|apply sim_delimited|]; apply sim_borrowed, takes_while1.
  Qed.
  Lemma remove_empty_says : forall v, option_map cow_str (zremove_empty v) = remove_empty (option_map cow_str v).
  Proof. intros [v|]; [|easy]. cbn [zremove_empty option_map]. destruct (cow_str v) eqn:E'; [easy|]. cbn [option_map remove_empty]. now rewrite E'. Qed.
  Definition osays (c : option cow) (s : option str) : Prop := option_map cow_str c = s.
  Lemma sim_value : forall p q, sim says p q -> sim osays (pmap zremove_empty (opt p)) (pmap remove_empty (opt q)).
  Proof.
    intros p q H. eapply (sim_map _ _ _ _ osays).
    - apply (sim_opt _ _ says); [exact H| |easy]. intros a b R. unfold osays. cbn [option_map]. now rewrite R.
    - intros a b <-. apply remove_empty_says.
  Qed.
  Lemma sim_parameter : sim param_says zparameter_p parameter_p.
  Proof.
    apply sim_alt2.
    - eapply sim_map; [apply sim_preceded, sim_separated; [apply sim_borrowed, takes_key|apply sim_value, sim_param_value]|].
      intros [k v] [k' v'] [H1 H2]. cbn [fst snd] in *. unfold param_says, param_text. cbn [zp_key zp_val]. now rewrite H1, H2.
    - eapply sim_map; [apply sim_pair; [apply sim_preceded, sim_borrowed, takes_key|apply sim_value, sim_preceded, sim_param_value]|].
      intros [k v] [k' v'] [H1 H2]. cbn [fst snd] in *. unfold param_says, param_text. cbn [zp_key zp_val]. now rewrite H1, H2.
  Qed.
  Lemma forall2_map : forall A B (f : A -> B) l m, Forall2 (fun a b => f a = b) l m -> map f l = m.
  Proof. intros A B f l m H. induction H; [easy|]. cbn. now subst. Qed.
  Lemma sim_parameters : sim (fun l m => map param_text l = m) zparameters parameters.
  Proof. eapply sim_weak; [|apply sim_many0', sim_parameter]. intros l m H. now apply forall2_map. Qed.
  Lemma value_type_says : forall n ps, zvalue_type n ps = determin_value_type (cow_str n) (map param_text ps).
  Proof.
    intros n ps. unfold zvalue_type, determin_value_type.
    assert (F : find (fun q => str_eqb (pp_key q) (lit "VALUE")) (map param_text ps)
                = option_map param_text (find (fun q => cow_is (zp_key q) (lit "VALUE")) ps)).
    { generalize (lit "VALUE"). intros k. induction ps as [|q ps IH]; [easy|]. cbn [map find]. unfold cow_is at 1. cbn [param_text pp_key].
      now destruct (str_eqb _ _). }
    rewrite F. destruct (find _ ps) as [q|]; [|easy]. cbn [option_map param_text pp_val]. now destruct (zp_val q).
  Qed.
  Lemma decode_says : forall n ps v, cow_str (zdecode n ps v) = decode_value (cow_str n) (map param_text ps) (cow_str v).
  Proof.
    intros n ps v. unfold zdecode, decode_value. rewrite value_type_says. destruct (determin_value_type _ _) as [[]|]; try easy.
    apply cow_unescape_text.
  Qed.
  Lemma sim_property : sim prop_says zproperty_p property_p.
  Proof.
    apply sim_context, sim_cut.
    apply (sim_map _ _ _ _ (fun x y => (cow_str (fst (fst (fst x))) = fst (fst (fst y)) /\ map param_text (snd (fst (fst x))) = snd (fst (fst y)))
      /\ cow_str (snd (fst x)) = snd (fst y))).
    2: { intros [[[n ps] v] o] [[[n' ps'] v'] o'] [[H1 H2] H3]. cbn [fst snd] in *. subst. unfold prop_says, prop_text.
         cbn [zr_name zr_val zr_params]. now rewrite decode_says. }
    eapply sim_weak; [|apply (sim_pair _ _ _ _ (fun x y => (cow_str (fst (fst x)) = fst (fst y) /\ map param_text (snd (fst x)) = snd (fst y))
      /\ cow_str (snd x) = snd y) eq); [|apply sim_refl]].
    { intros [a o] [b o'] [H _]. exact H. }
    apply sim_alt2.
    - eapply sim_weak; [|apply (sim_separated _ _ _ _ _ (fun x y => cow_str (fst x) = fst y /\ map param_text (snd x) = snd y) says)].
      + intros [a c] [b d] H. exact H.
      + apply (sim_pair _ _ _ _ says (fun l m => map param_text l = m)); [|apply sim_parameters].
        apply sim_cut, sim_context, sim_preceded, sim_borrowed, takes_property_key.
      + apply sim_context, sim_alt3; apply sim_borrowed; [apply takes_until|apply takes_until|apply takes_while].
    - apply sim_context. eapply (sim_map _ _ _ _ says); [apply sim_borrowed, takes_key|]. easy.
  Qed.

  Definition child_text (x : zcomp + zprop) : pcomp + pprop := match x with inl c => inl (comp_text c) | inr p => inr (prop_text p) end.
  Lemma children_props_says : forall l, map prop_text (zchildren_props l) = children_props (map child_text l).
  Proof. intros l. unfold zchildren_props, children_props. induction l as [|[c|p] l IH]; cbn; congruence. Qed.
  Lemma children_comps_says : forall l, map comp_text (zchildren_comps l) = children_comps (map child_text l).
  Proof. intros l. unfold zchildren_comps, children_comps. induction l as [|[c|p] l IH]; cbn; congruence. Qed.
  Lemma sim_separated_line : forall A B (R : A -> B -> Prop) p q, sim R p q -> sim R (line_separated p) (line_separated q).
  Proof. intros. now apply sim_delimited. Qed.
  Lemma sim_component : forall f, sim comp_says (zcomponent f) (component f).
  Proof.
    induction f as [|f IH]; [easy|]. cbn [zcomponent component].
    eapply sim_bind; [apply sim_separated_line, sim_preceded, sim_borrowed, takes_key|]. intros n n' <-.
    eapply (sim_bind _ _ _ _ (fun x y => map child_text (fst x) = fst y)).
    - intros i. pose proof (sim_till _ _ _ (fun a b => child_text a = b)
        (cut (context "component" (alt2 (line_separated (pmap inl (zcomponent f))) (line_separated (pmap inr zproperty_p)))))
        (cut (context "component" (alt2 (line_separated (pmap inl (component f))) (line_separated (pmap inr property_p)))))
        (line (lit "END:") (cut (context "mismatching end" (tag (cow_str n))))) (S (length i))) as T.
      match type of T with ?X -> _ => assert (H : X) end.
      { apply sim_cut, sim_context, sim_alt2; apply sim_separated_line.
        - eapply sim_map; [apply IH|]. intros a b <-. easy.
        - eapply sim_map; [apply sim_property|]. intros a b <-. easy. }
      specialize (T H i). cbv beta. destruct (many_till _ _ _ i) as [r a|e|e|], (many_till _ _ _ i) as [s b|e'|e'|]; try easy.
      destruct T as [-> T]. split; [easy|]. now apply forall2_map.
    - intros [l x] [m y] H. cbn [fst] in H. subst m. eapply sim_bind; [apply sim_refl|]. intros. apply sim_ret.
      unfold comp_says. cbn [comp_text]. now rewrite children_props_says, children_comps_says.
  Qed.
  Lemma sim_component_p : sim comp_says zcomponent_p component_p.
  Proof. intros i. apply sim_component. Qed.
  Lemma sim_components : sim (fun l m => map comp_text l = m) zcomponents_p components_p.
  Proof. eapply sim_weak; [|apply sim_many0', sim_all, sim_component_p]. intros l m H. now apply forall2_map. Qed.
  Lemma sim_finish : forall A B (f : A -> B) p q, sim (fun a b => f a = b) p q -> forall i, rmap f (finish (p i)) = finish (q i).
  Proof.
    intros A B f p q H i. specialize (H i). destruct (p i), (q i); try easy; cbn; [|now subst|now subst]. now destruct H as [_ ->].
  Qed.
End Same.

Lemma roots_says : forall cs, cal_text (zcal_of_roots cs) = pcal_of_roots (map comp_text cs).
Proof.
  intros [|[n ps cs] l]; [easy|]. cbn [zcal_of_roots pcal_of_roots map comp_text zc_name pc_name]. unfold cow_is.
  now destruct (str_eqb _ _).
Qed.
Lemma rmap_rmap : forall A B C X (f : A -> B) (g : B -> C) (r : result A X), rmap g (rmap f r) = rmap (fun a => g (f a)) r.
Proof. intros. now destruct r. Qed.
Theorem same_components : forall {U : Unicode} i, rmap (map comp_text) (zread_components i) = read_components i.
Proof. intros U i. apply (sim_finish _ _ _ _ _ sim_components). Qed.
Theorem same_calendar : forall {U : Unicode} i, rmap cal_text (zread_calendar i) = read_calendar i.
Proof.
  intros U i. pose proof (same_components i) as H. unfold zread_components, read_components in H. unfold zread_calendar, read_calendar.
  rewrite <- H, !rmap_rmap. destruct (finish _); try easy. cbn [rmap]. now rewrite roots_says.
Qed.
Theorem same_component : forall {U : Unicode} i, rmap comp_text (zread_component i) = read_component i.
Proof. intros U i. apply (sim_finish _ _ _ _ _ sim_component_p). Qed.
Theorem same_property : forall {U : Unicode} i, rmap prop_text (zread_property i) = read_property i.
Proof. intros U i. apply (sim_finish _ _ _ _ _ sim_property). Qed.
Theorem same_parameter : forall {U : Unicode} i, rmap param_text (zread_parameter i) = read_parameter i.
Proof. intros U i. apply (sim_finish _ _ _ _ _ sim_parameter). Qed.

(** ** Where the strings are *)

Notation item := (role * cow)%type.
Lemma drawn_le : forall t x a b, drawn t x a b -> a <= b /\ b <= length t.
Proof. intros t x a b H. destruct H; subst; rewrite ?app_length; lia. Qed.
Lemma laid_le : forall t a l b, laid t a l b -> a <= b.
Proof. intros t a l b H. induction H; [easy|]. apply drawn_le in H0. lia. Qed.
Lemma laid_weak : forall t a l b, laid t a l b -> forall a' b', a' <= a -> b <= b' -> laid t a' l b'.
Proof.
  intros t a l b H. induction H; intros a' b' L M; [constructor; lia|]. apply (Laid_next _ _ _ c d); [lia|easy|]. now apply IHlaid.
Qed.
Lemma laid_app : forall t a l b, laid t a l b -> forall m c, laid t b m c -> laid t a (l ++ m) c.
Proof.
  intros t a l b H. induction H; intros m c' G; cbn [app].
  - now apply (laid_weak _ _ _ _ G).
  - apply (Laid_next _ _ _ c d); auto.
Qed.
Lemma laid_swap : forall t x y, (forall a b, drawn t x a b -> drawn t y a b) -> forall l m a b, laid t a (l ++ x :: m) b -> laid t a (l ++ y :: m) b.
Proof.
  intros t x y H. induction l as [|z l IH]; cbn [app]; intros m a b L; inversion L; subst; apply (Laid_next _ _ _ c d); auto.
Qed.
Lemma laid_drop : forall t x l m a b, laid t a (l ++ x :: m) b -> laid t a (l ++ m) b.
Proof.
  intros t x. induction l as [|z l IH]; cbn [app]; intros m a b L; inversion L; subst.
  - apply (laid_weak _ _ _ _ H5); [|lia]. apply drawn_le in H3. lia.
  - apply (Laid_next _ _ _ c d); auto.
Qed.

Lemma laid_front : forall t l m a b, laid t a (l ++ m) b -> laid t a l b.
Proof.
  intros t. induction l as [|z l IH]; cbn [app]; intros m a b L; [constructor; now apply laid_le in L|].
  inversion L; subst. apply (Laid_next _ _ _ c d); eauto.
Qed.

Section Places.
  Context {U : Unicode} {E : Type} {PE : PErr E}.
  Variable t : str.
  Definition off (i : str) : nat := length t - length i.
  Lemma off_le : forall r i, suffix r i -> suffix i t -> off i <= off r.
  Proof. intros r i H G. apply suffix_length in H. apply suffix_length in G. unfold off. lia. Qed.

  (** [Q l a]: the result [a] has the strings [l]. *)
  Definition puts {A} (Q : list item -> A -> Prop) (p : parser E A) : Prop :=
    forall i r a, suffix i t -> p i = IOk r a -> suffix r i /\ exists l, Q l a /\ laid t (off i) l (off r).
  Definition nothing {A} (l : list item) (a : A) : Prop := l = [].
  Lemma puts_weak : forall A (Q R : list item -> A -> Prop) p, (forall l a, Q l a -> R l a) -> puts Q p -> puts R p.
  Proof. intros A Q R p H G i r a S P. destruct (G i r a S P) as (S1 & l & H1 & H2). split; [easy|]. exists l. auto. Qed.
  Lemma puts_bind : forall A B (Q : list item -> A -> Prop) (R : list item -> B -> Prop) p f, puts Q p ->
    (forall l a, Q l a -> puts (fun m => R (l ++ m)) (f a)) -> puts R (pbind p f).
  Proof.
    intros A B Q R p f H G i r b S P. apply pbind_ok in P as (m & a & P1 & P2). destruct (H i m a S P1) as (S1 & l & H1 & H2).
    destruct (G l a H1 m r b (suffix_trans _ _ _ S1 S) P2) as (S2 & l' & H3 & H4). split; [now apply (suffix_trans _ m)|].
    exists (l ++ l'). split; [easy|]. now apply (laid_app _ _ _ _ H2).
  Qed.
  Lemma puts_ret : forall A (Q : list item -> A -> Prop) a, Q [] a -> puts Q (pret a).
  Proof. intros A Q a H i r b S P. injection P as <- <-. split; [apply suffix_refl|]. exists []. split; [easy|now constructor]. Qed.
  Lemma puts_map : forall A B (Q : list item -> A -> Prop) (R : list item -> B -> Prop) p f, puts Q p ->
    (forall l a, Q l a -> R l (f a)) -> puts R (pmap f p).
  Proof. intros A B Q R p f H G. apply (puts_bind _ _ Q); [easy|]. intros l a H1. apply puts_ret. rewrite app_nil_r. auto. Qed.
  Lemma puts_preceded : forall A B (R : list item -> B -> Prop) (p : parser E A) q, puts nothing p -> puts R q -> puts R (preceded p q).
  Proof. intros A B R p q H G. apply (puts_bind _ _ nothing); [easy|]. intros l a ->. exact G. Qed.
  Definition both {A B} (Q : list item -> A -> Prop) (R : list item -> B -> Prop) (l : list item) (x : A * B) : Prop :=
    exists l1 l2, l = l1 ++ l2 /\ Q l1 (fst x) /\ R l2 (snd x).
  Lemma puts_pair : forall A B (Q : list item -> A -> Prop) (R : list item -> B -> Prop) p q, puts Q p -> puts R q -> puts (both Q R) (pair p q).
  Proof.
    intros A B Q R p q H G. apply (puts_bind _ _ Q); [easy|]. intros l a H1. apply (puts_bind _ _ R); [easy|]. intros m b H2.
    apply puts_ret. exists l, m. now rewrite app_nil_r.
  Qed.
  Lemma puts_separated : forall A B C (Q : list item -> A -> Prop) (R : list item -> B -> Prop) p (s : parser E C) q, puts Q p -> puts nothing s -> puts R q ->
    puts (both Q R) (separated_pair p s q).
  Proof.
    intros A B C Q R p s q H K G. apply (puts_bind _ _ Q); [easy|]. intros l a H1. apply (puts_bind _ _ nothing); [easy|]. intros l' c ->.
    apply (puts_bind _ _ R); [easy|]. intros m b H2. apply puts_ret. exists l, m. now rewrite app_nil_r.
  Qed.
  Lemma puts_delimited : forall A B C (Q : list item -> A -> Prop) (p : parser E B) q (s : parser E C), puts nothing p -> puts Q q -> puts nothing s ->
    puts Q (delimited p q s).
  Proof.
    intros A B C Q p q s H K G. apply (puts_bind _ _ nothing); [easy|]. intros l a ->. apply (puts_bind _ _ Q); [easy|]. intros l' c H1.
    apply (puts_bind _ _ nothing); [easy|]. intros m b ->. apply puts_ret. now rewrite !app_nil_r.
  Qed.
  Lemma puts_alt2 : forall A (Q : list item -> A -> Prop) p q, puts Q p -> puts Q q -> puts Q (alt2 p q).
  Proof. intros A Q p q H G i r a S P. apply alt2_ok in P as [P|P]; auto. Qed.
  Lemma puts_alt3 : forall A (Q : list item -> A -> Prop) p q s, puts Q p -> puts Q q -> puts Q s -> puts Q (alt3 p q s).
  Proof. intros A Q p q s H G K i r a S P. apply alt3_ok in P as [P|[P|P]]; auto. Qed.
  Lemma puts_opt : forall A (Q : list item -> option A -> Prop) p, puts (fun l a => Q l (Some a)) p -> Q [] None -> puts Q (opt p).
  Proof.
    intros A Q p H G i r a S P. apply opt_ok in P as [(b & P & ->)|[-> ->]]; [now apply H|].
    split; [apply suffix_refl|]. exists []. split; [easy|now constructor].
  Qed.
  Lemma puts_cut : forall A (Q : list item -> A -> Prop) p, puts Q p -> puts Q (cut p).
  Proof. intros A Q p H i r a S P. apply cut_ok in P. auto. Qed.
  Lemma puts_context : forall A (Q : list item -> A -> Prop) c p, puts Q p -> puts Q (context c p).
  Proof. intros A Q c p H i r a S P. apply context_ok in P. auto. Qed.
  Lemma puts_all : forall A (Q : list item -> A -> Prop) p, puts Q p -> puts Q (all_consuming p).
  Proof.
    intros A Q p H i r a S P. apply H; [easy|]. unfold all_consuming in P. destruct (p i) as [[|c s] b|e|e|]; easy.
  Qed.
  Definition each {A} (Q : list item -> A -> Prop) (l : list item) (x : list A) : Prop := exists ls, l = concat ls /\ Forall2 Q ls x.
  Lemma puts_many0 : forall A (Q : list item -> A -> Prop) p f, puts Q p -> puts (each Q) (many0 f p).
  Proof.
    intros A Q p f H. induction f as [|f IH]; intros i r a S P; [easy|]. cbn [many0] in P. destruct (p i) as [s b|e|e|] eqn:P1; try easy.
    - destruct (_ =? _); [easy|]. destruct (many0 f p s) as [s' l|e|e|] eqn:P2; try easy. injection P as <- <-.
      destruct (H i s b S P1) as (S1 & l1 & H1 & H2). destruct (IH s s' l (suffix_trans _ _ _ S1 S) P2) as (S2 & l2 & (ls & -> & H3) & H4).
      split; [now apply (suffix_trans _ s)|]. exists (l1 ++ concat ls). split; [|now apply (laid_app _ _ _ _ H2)].
      exists (l1 :: ls). split; [easy|now constructor].
    - injection P as <- <-. split; [apply suffix_refl|]. exists []. split; [exists []; split; [easy|constructor]|now constructor].
  Qed.
  Lemma puts_many0' : forall A (Q : list item -> A -> Prop) p, puts Q p -> puts (each Q) (fun i => many0 (S (length i)) p i).
  Proof. intros A Q p H i. now apply puts_many0. Qed.
  Lemma puts_till : forall A B (Q : list item -> A -> Prop) p (g : parser E B) f, puts Q p -> puts nothing g -> puts (fun l x => each Q l (fst x)) (many_till f p g).
  Proof.
    intros A B Q p g f H G. induction f as [|f IH]; intros i r a S P; [easy|]. cbn [many_till] in P.
    destruct (g i) as [s' x|e|e|] eqn:P0; try easy.
    { injection P as <- <-. destruct (G i _ _ S P0) as (S1 & l & H1 & H2). unfold nothing in H1. subst l. split; [easy|]. exists []. split; [|easy].
      exists []. split; [easy|constructor]. }
    destruct (p i) as [s b|e'|e'|] eqn:P1; try easy.
    destruct (_ =? _); [easy|]. destruct (many_till f p g s) as [s' [l x]|e'|e'|] eqn:P2; try easy. injection P as <- <-.
    destruct (H i s b S P1) as (S1 & l1 & H1 & H2). destruct (IH s s' _ (suffix_trans _ _ _ S1 S) P2) as (S2 & l2 & (ls & -> & H3) & H4).
    split; [now apply (suffix_trans _ s)|]. exists (l1 ++ concat ls). split; [|now apply (laid_app _ _ _ _ H2)].
    exists (l1 :: ls). split; [easy|now constructor].
  Qed.
  (** Parsers without strings. *)
  Lemma puts_nothing : forall A (p : parser E A), (forall i r a, p i = IOk r a -> suffix r i) -> puts nothing p.
  Proof.
    intros A p H i r a S P. apply H in P. split; [easy|]. exists []. split; [easy|]. constructor. now apply off_le.
  Qed.
  Lemma puts_takes : forall p, takes p -> puts nothing p.
  Proof. intros p H. apply puts_nothing. intros i r a P. apply H in P as ->. now exists a. Qed.
  Lemma puts_tag : forall s, puts nothing (tag s).
  Proof. intros s. apply puts_nothing. intros i r a P. apply tag_taken in P as ->. now exists s. Qed.
  Lemma puts_line_ending : puts nothing line_ending.
  Proof. apply puts_nothing. intros i r a P. apply line_ending_taken in P as [-> _]. now exists a. Qed.
  Lemma puts_no_case : forall s, puts nothing (tag_no_case s).
  Proof. intros s. apply puts_nothing. intros i r a P. apply tag_no_case_taken in P as (k & -> & _). now exists k. Qed.
  Lemma puts_nothing_many0 : forall A (p : parser E A), puts nothing p -> puts nothing (fun i => many0 (S (length i)) p i).
  Proof.
    intros A p H. eapply puts_weak; [|now apply puts_many0', H]. intros l a (ls & -> & F). unfold nothing in *.
    induction F as [|x y ls a F1 F2 IH]; [easy|]. cbn [concat]. now rewrite F1, IH.
  Qed.
  Lemma puts_nothing_both : forall A B (p : parser E A) (q : parser E B), puts nothing p -> puts nothing q -> puts nothing (pair p q).
  Proof. intros A B p q H G. eapply puts_weak; [|apply (puts_pair _ _ _ _ _ _ H G)]. intros l x (l1 & l2 & -> & -> & ->). reflexivity. Qed.
  Lemma puts_borrowed : forall p r, (forall b, r <> RValue true b) -> takes p -> puts (fun l c => l = [(r, c)]) (borrowed p).
  Proof.
    intros p ro N H i r c [x T] P. unfold borrowed in P. destruct (p i) as [s a|e|e|] eqn:Q; try easy. injection P as <- <-.
    apply H in Q as ->. split; [now exists a|]. eexists. split; [reflexivity|].
    apply (Laid_next _ _ _ (length x) (length x + length a)).
    - unfold off. rewrite T, !app_length. lia.
    - apply Drawn_here; [easy|]. intros b K. now apply N in K.
    - constructor. unfold off. rewrite T, !app_length. lia.
  Qed.
  Lemma puts_name : forall p, takes p -> puts (fun l c => l = [(RName, c)]) (borrowed p).
  Proof. intros p. now apply puts_borrowed. Qed.
  Lemma puts_param_value : puts (fun l c => l = [(RName, c)]) zparam_value.
  Proof.
    apply puts_alt3; [apply puts_name, takes_eof|apply puts_delimited; [apply puts_tag| |apply puts_tag]|]; apply puts_name, takes_while1.
  Qed.
  Definition opt_strings (v : option cow) : list item := match v with Some c => [(RName, c)] | None => [] end.
  Lemma puts_value : forall p, puts (fun l c => l = [(RName, c)]) p -> puts (fun l v => l = opt_strings v) (pmap zremove_empty (opt p)).
  Proof.
    intros p H i r v S P. apply pmap_ok in P as (o & P & ->). apply opt_ok in P as [(c & P & ->)|[-> ->]].
    - destruct (H i r c S P) as (S1 & l & -> & L). split; [easy|]. cbn [zremove_empty]. destruct (cow_str c).
      + exists []. split; [easy|]. constructor. now apply off_le.
      + eexists. split; [reflexivity|easy].
    - split; [apply suffix_refl|]. exists []. split; [easy|now constructor].
  Qed.
  Lemma puts_start : puts nothing (pair (tag [SEMI]) space0).
  Proof. apply puts_nothing_both; [apply puts_tag|apply puts_takes, takes_while]. Qed.
  Lemma puts_parameter : puts (fun l q => l = param_strings q) zparameter_p.
  Proof.
    apply puts_alt2.
    - eapply puts_map; [apply puts_preceded; [apply puts_start|apply puts_separated]|].
      + apply puts_name, takes_key.
      + apply puts_tag.
      + apply puts_value, puts_param_value.
      + intros l [k v] (l1 & l2 & -> & -> & ->). reflexivity.
    - eapply puts_map; [apply puts_pair; [apply puts_preceded; [apply puts_start|]|]|].
      + apply puts_name, takes_key.
      + apply puts_value, puts_preceded; [apply puts_tag|apply puts_param_value].
      + intros l [k v] (l1 & l2 & -> & -> & ->). reflexivity.
  Qed.
  Lemma each_eq : forall A (f : A -> list item) l x, each (fun l a => l = f a) l x -> l = concat (map f x).
  Proof. intros A f l x (ls & -> & F). f_equal. induction F; [easy|]. cbn. now subst. Qed.
  Lemma puts_parameters : puts (fun l qs => l = concat (map param_strings qs)) zparameters.
  Proof. eapply puts_weak; [|apply puts_many0', puts_parameter]. intros l x. apply each_eq. Qed.
  (** The value before it is unescaped. *)
  Lemma drawn_decode : forall n ps v x a b, x = RName \/ x = RValue false true /\ ps = [] -> drawn t (x, v) a b ->
    drawn t (value_role (mk_zprop n (zdecode n ps v) ps), zdecode n ps v) a b.
  Proof.
    intros n ps v x a b X D. unfold value_role, zdecode. cbn [prop_text Parser.pr_name pr_params zr_name zr_params]. rewrite value_type_says.
    inversion D as [x' y z r T H|x' y z b' T H|x' a' L]; subst.
    - assert (K : cow_str (Borrowed (y ++ z) (length y)) = y) by apply firstn_app_exact.
      destruct (determin_value_type _ _) as [[]|]; try (apply Drawn_here; [easy|discriminate]). cbn [cow_by_type].
      destruct (escapes_dec y) as [G|G].
      + rewrite cow_unescape_copied by now rewrite K. rewrite K. now apply (Drawn_copied _ x' y z).
      + rewrite cow_unescape_kept by now rewrite K. now apply Drawn_here.
    - destruct X as [X|[X _]]; discriminate X.
    - destruct X as [X|[_ ->]]; [discriminate X|]. destruct (determin_value_type _ _) as [[]|]; now constructor.
  Qed.
  Lemma puts_property : puts (fun l p => l = prop_strings p) zproperty_p.
  Proof.
    intros i r p S P. apply context_ok, cut_ok, pmap_ok in P as ([[[n ps] v] o] & P & ->).
    enough (Q : puts (fun l x => exists y, l = (RName, fst (fst (fst x))) :: concat (map param_strings (snd (fst (fst x)))) ++ [(y, snd (fst x))]
      /\ (y = RName \/ y = RValue false true /\ snd (fst (fst x)) = []))
      (pair
            (alt2
              (separated_pair
                (pair (cut (context "property cannot be END or BEGIN"
                             (preceded multispace0 (borrowed property_key))))
                      zparameters)
                (context "property separator" (tag [COLON]))
                (context "property value"
                  (alt3 (borrowed (take_until [CR; LF])) (borrowed (take_until [LF])) (borrowed (take_while (fun _ => true))))))
              (context "no-value property"
                (pmap (fun k => ((k, []), Static [])) zkey)))
            (opt line_ending))).
    { destruct (Q i r _ S P) as (S1 & l & (y & -> & Y) & L). split; [easy|]. eexists. split; [reflexivity|]. unfold prop_strings. cbn [fst snd zr_name zr_val zr_params] in *.
      rewrite app_comm_cons in *. eapply laid_swap; [|exact L]. intros a b. now apply drawn_decode. }
    clear i r n ps v o S P.
    eapply puts_weak; [|apply puts_pair; [apply (puts_alt2 _ (fun l x => exists y, l = (RName, fst (fst x)) :: concat (map param_strings (snd (fst x))) ++ [(y, snd x)]
                                           /\ (y = RName \/ y = RValue false true /\ snd (fst x) = [])))
                                         |apply (puts_opt _ nothing); [apply puts_line_ending|easy]]].
    - intros l x (l1 & l2 & -> & (y & -> & Y) & ->). exists y. now rewrite app_nil_r.
    - eapply puts_weak; [|apply (puts_separated _ _ _ (both (fun l c => l = [(RName, c)]) (fun l qs => l = concat (map param_strings qs))) (fun l c => l = [(RName, c)])); [apply puts_pair; [|apply puts_parameters]| |]].
      + intros l x (l1 & l2 & -> & (l3 & l4 & -> & -> & ->) & ->). exists RName. split; [reflexivity|now left].
      + apply puts_cut, puts_context, puts_preceded; [apply puts_takes, takes_while|apply puts_name, takes_property_key].
      + apply puts_context, puts_tag.
      + apply puts_context, puts_alt3; (apply puts_borrowed; [discriminate|]); [apply takes_until|apply takes_until|apply takes_while].
    - apply puts_context. intros i r x S P. apply pmap_ok in P as (k & P & ->).
      destruct (puts_name _ takes_key i r k S P) as (S1 & l & -> & L). split; [easy|]. eexists. split; [exists (RValue false true); split; [reflexivity|now right]|].
      cbn [fst snd map concat app]. change [(RName, k); (RValue false true, Static [])] with ([(RName, k)] ++ [(RValue false true, Static [])]).
      eapply laid_app; [exact L|]. eapply Laid_next; [reflexivity|apply Drawn_nothing; unfold off; lia|now constructor].
  Qed.
  Lemma puts_line_separated : forall A (Q : list item -> A -> Prop) p, puts Q p -> puts Q (line_separated p).
  Proof. intros A Q p H. apply puts_delimited; [|easy|]; apply puts_nothing_many0, puts_line_ending. Qed.
  Definition child_put (l : list item) (x : zcomp + zprop) : Prop := match x with inl c => comp_strings c l | inr p => l = prop_strings p end.
  Lemma mixed_children : forall l body, each child_put l body -> mixed (zchildren_props body) (zchildren_comps body) l.
  Proof.
    intros l body (ls & -> & F). unfold zchildren_props, zchildren_comps. induction F as [|l x ls body H F IH]; [constructor|].
    cbn [concat flat_map]. destruct x as [c|p]; cbn [child_put app] in *; [now constructor|subst; now constructor].
  Qed.
  Lemma puts_component : forall f, puts (fun l c => comp_strings c l) (zcomponent f).
  Proof.
    induction f as [|f IH]; [easy|]. cbn [zcomponent].
    eapply puts_bind; [apply puts_line_separated, puts_preceded; [apply puts_no_case|apply puts_name, takes_key]|]. intros l n ->.
    eapply (puts_bind _ _ (fun l x => each child_put l (fst x))).
    - intros i. apply puts_till.
      + apply puts_cut, puts_context, puts_alt2; apply puts_line_separated.
        * eapply puts_map; [apply IH|]. intros l c H. exact H.
        * eapply puts_map; [apply puts_property|]. intros l c ->. reflexivity.
      + apply puts_line_separated, puts_preceded; [apply puts_no_case|]. apply puts_cut, puts_context, puts_tag.
    - intros l [body x] H. cbn [fst] in H. eapply (puts_bind _ _ nothing); [apply puts_nothing_many0, puts_tag|]. intros m y ->.
      apply puts_ret. cbn [app]. rewrite !app_nil_r. constructor. now apply mixed_children.
  Qed.
  Lemma puts_component_p : puts (fun l c => comp_strings c l) zcomponent_p.
  Proof. intros i. apply puts_component. Qed.
  Lemma puts_components : puts (fun l cs => mixed [] cs l) zcomponents_p.
  Proof.
    eapply puts_weak; [|apply puts_many0', puts_all, puts_component_p]. intros l x (ls & -> & F).
    induction F; cbn [concat]; now constructor.
  Qed.
End Places.

Lemma finish_ok : forall E A (r : ires E A) a, finish r = Ok a -> exists s, r = IOk s a.
Proof. intros E A [s a'|e|e|] a H; try easy. injection H as <-. now exists s. Qed.
Lemma puts_placed : forall E A (Q : list item -> A -> Prop) t (p : parser E A), puts t Q p ->
  forall a, finish (p t) = Ok a -> exists l, Q l a /\ laid t 0 l (length t).
Proof.
  intros E A Q t p H a F. apply finish_ok in F as (r & F). destruct (H t r a (suffix_refl t) F) as (S & l & P & L).
  exists l. split; [easy|]. apply (laid_weak _ _ _ _ L); unfold off; lia.
Qed.
Theorem placed_components : forall {U : Unicode} t cs, zread_components t = Ok cs -> exists l, mixed [] cs l /\ laid t 0 l (length t).
Proof. intros U t cs H. apply (puts_placed _ _ _ _ _ (puts_components t) _ H). Qed.
Theorem placed_component : forall {U : Unicode} t c, zread_component t = Ok c -> exists l, comp_strings c l /\ laid t 0 l (length t).
Proof. intros U t c H. apply (puts_placed _ _ _ _ _ (puts_component_p t) _ H). Qed.
Theorem placed_property : forall {U : Unicode} t p, zread_property t = Ok p -> laid t 0 (prop_strings p) (length t).
Proof. intros U t p H. destruct (puts_placed _ _ _ _ _ (puts_property t) _ H) as (l & -> & L). exact L. Qed.
Theorem placed_parameter : forall {U : Unicode} t p, zread_parameter t = Ok p -> laid t 0 (param_strings p) (length t).
Proof. intros U t p H. destruct (puts_placed _ _ _ _ _ (puts_parameter t) _ H) as (l & -> & L). exact L. Qed.
Theorem placed_calendar : forall {U : Unicode} t c, zread_calendar t = Ok c -> exists l, cal_strings c l /\ laid t 0 l (length t).
Proof.
  intros U t c H. unfold zread_calendar in H. destruct (finish (zcomponents_p t)) as [cs|e|] eqn:F; try easy. injection H as <-.
  apply placed_components in F as (l & P & L). destruct cs as [|[n ps ds] cs]; [now exists l|].
  cbn [zcal_of_roots zc_name zc_props zc_comps]. destruct (cow_is n _); [|now exists l].
  inversion P as [| |c ps' cs' l1 l2 C M]; subst. inversion C as [n' ps' cs' l3 M']; subst. exists l3. split; [easy|].
  rewrite <- app_comm_cons in L. apply (laid_drop _ _ []) in L. cbn [app] in L. now apply laid_front in L.
Qed.

(** ** How much is copied *)

Lemma blen_wt : forall s, blen s = wt utf8_len s.
Proof. induction s as [|c s IH]; [easy|]. rewrite wt_cons. cbn [blen]. lia. Qed.
Lemma unescape_shorter : forall v, escapes v -> blen (unescape_text v) < blen v.
Proof. intros v H. rewrite !blen_wt. apply unescape_lighter; [..|exact H]; apply Nat.ltb_lt; reflexivity. Qed.
Definition weight (x : item) : nat := lent x + copied x + (if is_copy x then 1 else 0).
Lemma drawn_weight : forall t x a b, drawn t x a b -> weight x + blen (firstn a t) <= blen (firstn b t).
Proof.
  intros t x a b H. destruct H as [x y z r -> _|x y z b -> H|x a L]; [| |cbn; lia];
    rewrite firstn_app_exact; rewrite app_assoc, <- app_length, firstn_app_exact, FoldProofs.blen_app; unfold weight, lent, copied, is_copy; cbn [snd].
  - unfold cow_str. rewrite firstn_app_exact. lia.
  - apply unescape_shorter in H. lia.
Qed.
Lemma firstn_blen_le : forall t a b, a <= b -> blen (firstn a t) <= blen (firstn b t).
Proof.
  induction t as [|c t IH]; intros a b L; [now rewrite !firstn_nil|]. destruct a as [|a], b as [|b]; cbn [firstn blen]; try lia.
  specialize (IH a b ltac:(lia)). lia.
Qed.
Lemma laid_weight : forall t a l b, laid t a l b -> list_sum (map weight l) + blen (firstn a t) <= blen (firstn b t).
Proof.
  intros t a l b H. induction H as [a b L|a x c d l b L D H IH]; cbn [map list_sum fold_right].
  - now apply firstn_blen_le.
  - apply drawn_weight in D. pose proof (firstn_blen_le t _ _ L). unfold list_sum in *. lia.
Qed.
Lemma sum_weight : forall l, list_sum (map weight l) = list_sum (map lent l) + list_sum (map copied l) + length (filter is_copy l).
Proof.
  induction l as [|x l IH]; [easy|]. cbn [map filter]. unfold list_sum in *. cbn [fold_right]. rewrite IH. unfold weight. destruct (is_copy x); cbn [length]; lia.
Qed.
Theorem placed_weight : forall t l, laid t 0 l (length t) -> list_sum (map lent l) + list_sum (map copied l) + length (filter is_copy l) <= blen t.
Proof.
  intros t l L. apply laid_weight in L. rewrite sum_weight, firstn_all in L. cbn [firstn blen] in L. lia.
Qed.
Theorem placed_plain : forall t l a b, laid t a l b -> ~ In BSL t -> Forall (fun x => is_copy x = false) l.
Proof.
  intros t l a b L N. induction L as [a b L|a y c d l b L D H IH]; [constructor|]. constructor; [|easy].
  destruct D as [x y z r T G|x y z e T G|x e G]; try easy.
  exfalso. apply N. destruct G as (u & f & v & -> & _). rewrite T, !in_app_iff. right. left. right. now left.
Qed.
