(** The entry points on documents. *)
From Verif Require Import Str StrFacts Spec Fold ValueTypes Property Chrono DateTime Component Calendar Nom Parser SpecDoc
  UnfoldProofs ParserProofs TotalProofs ReadProofs AcceptProofs RejectProofs ErrorProofs.
From Coq Require Import ZifyBool ZifyNat ZifyN.

Section Docs.
  Context {U : Unicode}.
  Lemma answered_sound : forall E A (loc : str -> E -> Prop) (Q : A -> Prop) i r, sound loc Q i r -> answered (finish r).
  Proof. intros E A loc Q i [r a|e|e|] H; cbn; [left|right|right|destruct H]; eauto. Qed.
  Lemma answered_rmap : forall A B E (f : A -> B) (r : result A E), answered r -> answered (rmap f r).
  Proof. intros A B E f r [[a ->]|[e ->]]; cbn; [left|right]; eauto. Qed.
  Lemma parser_answers : forall i, answered (read_calendar i) /\ answered (read_components i)
    /\ answered (read_calendar_simple i) /\ answered (read_component i) /\ answered (read_property i)
    /\ answered (read_parameter i) /\ answered (calendar_from_str i) /\ answered (cc_from_str i) /\ answered (property_from_str i).
  Proof.
    assert (A : forall E (PE : PErr E) i, answered (finish (components_p (E := E) i))).
    { intros E PE i. eapply answered_sound, (good_components (fun _ _ => True)); easy. }
    assert (B : forall i, answered (read_component i)).
    { intros i. eapply answered_sound, (good_component_p (fun _ _ => True)); easy. }
    assert (C : forall i, answered (read_property i)).
    { intros i. eapply answered_sound, (good_property (fun _ _ => True)) with (n := S (length i)); try easy. lia. }
    assert (D : forall i, answered (read_parameter i)).
    { intros i. eapply answered_sound, (good_parameter (fun _ _ => True)) with (n := S (length i)); try easy. lia. }
    intros i. repeat apply conj; try apply answered_rmap; auto; try apply A; try apply answered_rmap, A; try apply B.
  Qed.

  (** Every location of an error is a suffix. *)
  Definition vloc (i : str) (e : verror) : Prop := Forall (fun l => suffix (fst l) i) e.
  Definition sloc (i : str) (e : str * ekind) : Prop := suffix (fst e) i.
  Lemma vloc_closed : (forall i k, vloc i (from_kind i k)) /\ (forall i k e, vloc i e -> vloc i (append_err i k e))
    /\ (forall i c e, vloc i e -> vloc i (add_context i c e)) /\ (forall i j e, suffix j i -> vloc j e -> vloc i e).
  Proof.
    unfold vloc. cbn. repeat apply conj.
    - intros. constructor; [apply suffix_refl|constructor].
    - intros. apply Forall_app. split; [easy|]. constructor; [apply suffix_refl|constructor].
    - intros. apply Forall_app. split; [easy|]. constructor; [apply suffix_refl|constructor].
    - intros i j e S. apply Forall_impl. intros a H. now apply (suffix_trans _ j).
  Qed.
  Lemma sloc_closed : (forall i k, sloc i (from_kind i k)) /\ (forall i k e, sloc i e -> sloc i (append_err i k e))
    /\ (forall i c e, sloc i e -> sloc i (add_context i c e)) /\ (forall i j e, suffix j i -> sloc j e -> sloc i e).
  Proof.
    unfold sloc. cbn. repeat apply conj; auto.
    - intros. apply suffix_refl.
    - intros i j e S H. now apply (suffix_trans _ j).
  Qed.
  Lemma err_sound : forall E A (loc : str -> E -> Prop) (Q : A -> Prop) i r e, sound loc Q i r -> finish r = Err e -> loc i e.
  Proof. intros E A loc Q i [r a|x|x|] e H F; cbn in *; try easy; now injection F as <-. Qed.
  Lemma errors_inside : forall i,
    (forall e, read_components i = Err e -> vloc i e) /\ (forall e, read_calendar i = Err e -> vloc i e)
    /\ (forall e, read_component i = Err e -> vloc i e) /\ (forall e, read_property i = Err e -> vloc i e)
    /\ (forall e, read_parameter i = Err e -> vloc i e) /\ (forall e, read_calendar_simple i = Err e -> sloc i e)
    /\ (forall e, calendar_from_str i = Err e -> vloc (unfold i) e) /\ (forall e, cc_from_str i = Err e -> vloc (unfold i) e).
  Proof.
    destruct vloc_closed as (V1 & V2 & V3 & V4). destruct sloc_closed as (S1 & S2 & S3 & S4).
    assert (M : forall A B (f : A -> B) (r : result A verror) e, rmap f r = Err e -> r = Err e).
    { intros A B f [a|x|] e H; cbn in H; try easy. now injection H as <-. }
    assert (A : forall i e, read_components i = Err e -> vloc i e).
    { intros i e. eapply err_sound, (good_components vloc V1 V2 V3 V4). }
    assert (B : forall i e, read_component i = Err e -> vloc i e).
    { intros i e. eapply err_sound, (good_component_p vloc V1 V2 V3 V4). }
    intros i. repeat apply conj; intros e H; auto.
    - apply M in H. now apply A.
    - eapply err_sound; [|exact H]. apply (good_property vloc V1 V2 V3 V4 (S (length i))). lia.
    - eapply err_sound; [|exact H]. apply (good_parameter vloc V1 V2 V3 V4 (S (length i))). lia.
    - eapply err_sound; [|exact H]. apply (good_components sloc S1 S2 S3 S4).
    - apply M, M in H. now apply A.
    - apply M in H. now apply B.
  Qed.

  Lemma rests : forall E (PE : PErr E) i r,
    (forall c, component_p (E := E) i = IOk r c -> suffix r i /\ comp_keyed c)
    /\ (forall cs, components_p (E := E) i = IOk r cs -> suffix r i /\ Forall comp_keyed cs)
    /\ (forall p, property_p (E := E) i = IOk r p -> suffix r i /\ prop_keyed p)
    /\ (forall q, parameter_p (E := E) i = IOk r q -> suffix r i /\ param_keyed q).
  Proof.
    intros E PE i r.
    assert (X : forall A (Q : A -> Prop) x a, sound (E := E) (fun _ _ => True) Q i x -> x = IOk r a -> suffix r i /\ Q a).
    { intros A Q x a H ->. exact H. }
    repeat apply conj; intros a; apply X.
    - now apply good_component_p.
    - now apply good_components.
    - apply (good_property (fun _ _ => True)) with (n := S (length i)); try easy. lia.
    - apply (good_parameter (fun _ _ => True)) with (n := S (length i)); try easy. lia.
  Qed.

  (** ** Reading documents *)

  Lemma component_doc : forall E (PE : PErr E) y t s b rest, wtree_ok y t -> wtree_text y t s -> breaks b -> no_break rest ->
    (y = Lf -> ~ has_crlf (s ++ rest)) -> component_p (E := E) (b ++ s ++ rest) = IOk rest (wtree_read t).
  Proof.
    intros E PE y t s b rest O T B R C. unfold component_p. apply (component_text_ok y); try easy. rewrite !app_length. lia.
  Qed.
  Lemma components_doc : forall E (PE : PErr E) y t s b, wtree_ok y t -> wtree_text y t s -> breaks b ->
    (y = Lf -> ~ has_crlf s) -> components_p (E := E) (b ++ s) = IOk [] [wtree_read t].
  Proof.
    intros E PE y t s b O T B C. rewrite components_read.
    pose proof (component_doc E PE y t s b [] O T B no_break_nil) as Q. rewrite app_nil_r in Q. now rewrite Q.
  Qed.
  Lemma document_read : forall y t s b, wtree_ok y t -> wtree_text y t s -> breaks b -> (y = Lf -> ~ has_crlf s) ->
    read_components (b ++ s) = Ok [wtree_read t] /\ read_calendar_simple (b ++ s) = Ok [wtree_read t]
    /\ read_component (b ++ s) = Ok (wtree_read t)
    /\ (pc_name (wtree_read t) = lit "VCALENDAR" ->
        read_calendar (b ++ s) = Ok (mk_pcal (pc_props (wtree_read t)) (pc_comps (wtree_read t)))).
  Proof.
    intros y t s b O T B C. unfold read_components, read_calendar_simple, read_calendar, read_component.
    rewrite !(components_doc _ _ y t) by easy. repeat apply conj; try easy.
    - pose proof (component_doc verror _ y t s b [] O T B no_break_nil) as Q. rewrite app_nil_r in Q. now rewrite Q.
    - intros N. cbn [finish rmap pcal_of_roots]. now rewrite N, str_eqb_refl.
  Qed.
  Lemma trailing : forall y t s b rest, wtree_ok y t -> wtree_text y t s -> breaks b -> no_break rest -> rest <> [] ->
    (y = Lf -> ~ has_crlf (s ++ rest)) ->
    read_components (b ++ s ++ rest) = Ok [] /\ read_calendar (b ++ s ++ rest) = Ok (mk_pcal [] []).
  Proof.
    intros y t s b rest O T B R N C. unfold read_calendar, read_components. rewrite components_read.
    rewrite (component_doc _ _ y t) by easy. now destruct rest.
  Qed.
  Lemma truncated_read : forall y n s b, open_text y n s -> breaks b -> (y = Lf -> ~ has_crlf s) ->
    read_components (b ++ s) = Ok [] /\ read_calendar (b ++ s) = Ok (mk_pcal [] []).
  Proof.
    intros y n s b O B C. unfold read_calendar, read_components. rewrite components_read.
    destruct (truncated (E := verror) y n s b O B C) as [e ->]. easy.
  Qed.
  Lemma mismatched_read : forall y s b, misnested y s -> breaks b -> (y = Lf -> ~ has_crlf s) ->
    exists e, read_components (b ++ s) = Err e /\ read_calendar (b ++ s) = Err e /\ read_component (b ++ s) = Err e.
  Proof.
    intros y s b M B C. unfold read_calendar, read_components, read_component. rewrite components_read.
    destruct (mismatched (E := verror) y s M C b (length (b ++ s)) B) as [e Q].
    { rewrite app_length. lia. }
    exists e. unfold component_p. now rewrite Q.
  Qed.
  Lemma accepted : forall i l, read_components i = Ok l ->
    l = [] \/ exists c, l = [c] /\ comp_taken c i [].
  Proof.
    intros i l. unfold read_components. rewrite components_read. unfold component_p.
    destruct (component (S (length i)) i) as [[|d r] c|e|e|] eqn:Q; cbn; intros H; try easy; injection H as <-; auto.
    right. exists c. split; [easy|]. apply component_taken in Q as (s & -> & T). now rewrite app_nil_r.
  Qed.
  Lemma component_accepted : forall i c, read_component i = Ok c -> exists s r, i = s ++ r /\ comp_taken c s r.
  Proof.
    intros i c. unfold read_component, component_p. destruct (component (S (length i)) i) as [r d|e|e|] eqn:Q; cbn; intros H; try easy.
    injection H as <-. apply component_taken in Q as (s & -> & T). now exists s, r.
  Qed.
  Lemma silent_nothing : forall i, read_components i = Ok [] <->
    (exists e, component_p (E := verror) i = IErr e) \/ (exists r c, component_p (E := verror) i = IOk r c /\ r <> []).
  Proof.
    intros i. unfold read_components. rewrite components_read. destruct (component_p i) as [[|d r] c|e|e|]; cbn; split; try easy; eauto.
    - intros [[? ?]|(r & d & H & N)]; [easy|]. injection H as <- <-. easy.
    - intros _. right. now exists (d :: r), c.
    - intros [[? ?]|(r & d & H & N)]; easy.
    - intros [[? ?]|(r & d & H & N)]; easy.
  Qed.

  (** ** Properties *)

  Lemma property_read_error : forall i,
    (exists e, read_property i = Err e) <->
    exists w r, Forall (fun c => In c [SP; TAB; CR; LF]) w /\ (i = w ++ lit "END" ++ r \/ i = w ++ lit "BEGIN" ++ r).
  Proof.
    intros i. pose proof (property_error (E := verror) i) as P. unfold read_property.
    destruct (property_p i) as [r a|e|e|]; cbn; try easy.
    - split; [intros [e H]; easy|]. intros H. now destruct P.
    - split; eauto.
  Qed.

  (** ** Error types *)

  Lemma simple_verbose : forall i,
    match read_calendar_simple i, read_components i with
    | Ok a, Ok b => a = b
    | Err (l, k), Err v => exists t, v = (l, VNom k) :: t
    | _, _ => False
    end.
  Proof.
    intros i. unfold read_calendar_simple, read_components.
    assert (A : alike (E1 := str * ekind) (E2 := verror) (fun e v => exists t, v = (fst e, VNom (snd e)) :: t) (components_p i) (components_p i)).
    { apply ag_components; cbn.
      - eauto.
      - intros j k e f [t ->]. cbn. eauto.
      - intros j c e f [t ->]. cbn. eauto. }
    pose proof (proj1 (proj2 (parser_answers i))) as B. unfold read_components in B.
    destruct (components_p i) as [r a|e|e|], (components_p i) as [r' b|f|f|]; cbn in *; try easy.
    - now destruct e.
    - now destruct e.
    - destruct B as [[? ?]|[? ?]]; easy.
  Qed.
End Docs.

(** ** Deciding well-formedness, for examples; the plain text of a tree *)

Section Check.
  Context {U : Unicode}.
  Definition prop_name_okb (k : str) : bool :=
    forallb is_key_char k && negb (starts_with (lit "END") k) && negb (starts_with (lit "BEGIN") k)
    && negb (str_eqb (map lower_ascii k) (lit "end")) && negb (str_eqb (map lower_ascii k) (lit "begin")).
  Lemma prop_name_okb_spec : forall k, prop_name_okb k = true <-> prop_name_ok k.
  Proof.
    intros k. unfold prop_name_okb, prop_name_ok. rewrite !andb_true_iff, !negb_true_iff, name_ok_spec, !str_eqb_neq.
    assert (A : forall p, starts_with p k = false <-> ~ has_prefix p k).
    { intros p. unfold has_prefix. rewrite <- starts_with_spec. now destruct (starts_with p k). }
    rewrite !A. tauto.
  Qed.
  Definition wparam_okb (q : wparam) : bool :=
    forallb is_key_char (wp_key q) &&
    match wp_form q with
    | FPlain v => negb (str_eqb v []) && forallb (fun c => negb ((c =? SEMI)%N || (c =? COLON)%N)) v && negb (starts_with [DQ] v)
    | FQuoted v => negb (str_eqb v []) && forallb (fun c => negb (c =? DQ)%N) v
    | _ => true
    end.
  Lemma wparam_okb_spec : forall q, wparam_okb q = true -> wparam_ok q.
  Proof.
    intros [k f] H. unfold wparam_okb, wparam_ok in *. cbn [wp_key wp_form] in *. apply andb_true_iff in H as [H1 H2].
    split; [now apply name_ok_spec|]. destruct f as [| |v|v]; try easy.
    - rewrite !andb_true_iff, !negb_true_iff in H2. destruct H2 as [[H2 H3] H4]. apply str_eqb_neq in H2. rewrite forallb_forall in H3.
      repeat split; try easy; try (intros I; apply H3 in I; now rewrite ?N.eqb_refl, ?orb_true_r in I).
      intros [r ->]. now rewrite starts_with_app in H4.
    - rewrite !andb_true_iff, !negb_true_iff in H2. destruct H2 as [H2 H3]. apply str_eqb_neq in H2. rewrite forallb_forall in H3.
      split; [easy|]. intros I. apply H3 in I. now rewrite N.eqb_refl in I.
  Qed.
  Definition wline_okb (y : style) (l : wline) : bool :=
    match l with
    | LValue k qs v => prop_name_okb k && forallb wparam_okb qs
        && match y with CrLf => match find_sub [CR; LF] v with None => true | _ => false end | Lf => forallb (fun c => negb (c =? LF)%N) v end
    | LBare k => prop_name_okb k && negb (str_eqb k [])
    end.
  Lemma wline_okb_spec : forall y l, wline_okb y l = true -> wline_ok y l.
  Proof.
    intros y [k qs v|k] H; unfold wline_okb, wline_ok in *.
    - rewrite !andb_true_iff in H. destruct H as [[H1 H2] H3]. split; [now apply prop_name_okb_spec|]. split.
      + rewrite forallb_forall in H2. apply Forall_forall. intros q I. now apply wparam_okb_spec, H2.
      + destruct y.
        * destruct (find_sub [CR; LF] v) eqn:F; [easy|]. intros (a & b & Q). now apply (find_sub_none _ _ F a b).
        * rewrite forallb_forall in H3. intros I. apply H3 in I. now rewrite N.eqb_refl in I.
    - apply andb_true_iff in H as [H1 H2]. split; [now apply prop_name_okb_spec|]. rewrite negb_true_iff in H2. now apply str_eqb_neq in H2.
  Qed.
  Fixpoint wtree_okb (y : style) (t : wtree) : bool :=
    match t with
    | W n its => forallb is_key_char n && forallb (fun x => match x with inl l => wline_okb y l | inr t => wtree_okb y t end) its
    end.
  Lemma wtree_okb_spec : forall y t, wtree_okb y t = true -> wtree_ok y t.
  Proof.
    intros y. induction t as [n its IH] using wtree_deep. cbn [wtree_okb]. intros H. apply andb_true_iff in H as [H1 H2].
    constructor; [now apply name_ok_spec|]. rewrite forallb_forall in H2. apply Forall_forall. intros [l|t] I; constructor.
    - now apply wline_okb_spec, (H2 (inl l)).
    - apply IH; [easy|]. now apply (H2 (inr t)).
  Qed.
  Definition end_of (y : style) : str := match y with CrLf => [CR; LF] | Lf => [LF] end.
  Lemma end_of_ok : forall y, line_end y (end_of y).
  Proof. intros [|]; [exists []; split; [easy|constructor]|now exists 0]. Qed.
  (** Upper-case keywords, one line break after each line. *)
  Fixpoint render (y : style) (t : wtree) : str :=
    match t with
    | W n its => lit "BEGIN:" ++ n ++ end_of y
        ++ concat (map (fun x => match x with inl l => wline_text l ++ end_of y | inr t => render y t end) its)
        ++ lit "END:" ++ n ++ end_of y
    end.
  Lemma render_text : forall y t, wtree_text y t (render y t).
  Proof.
    intros y. induction t as [n its IH] using wtree_deep. cbn [render]. constructor; try easy; try apply end_of_ok.
    assert (A : forall t, In (inr t) its -> wtree_text y t (render y t)) by exact IH. clear IH.
    induction its as [|x its IH]; cbn [map]; constructor.
    - destruct x as [l|t]; constructor; [exists (end_of y); split; [apply end_of_ok|easy]|]. apply A. now left.
    - apply IH. intros t I. apply A. now right.
  Qed.
End Check.
