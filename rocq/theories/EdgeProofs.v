(** Where a text was cut off. *)
From Verif Require Import Str StrFacts Fold Spec ValueTypes Property Chrono DateTime Component Calendar Nom Parser SpecBuild SpecTree SpecDoc SpecItems
  SpecGrammar SpecRound SpecExact SpecRefold SpecCut SpecEdge ParserProofs TotalProofs ReadProofs AcceptProofs RejectProofs ItemProofs DocProofs GrammarProofs TruncProofs RefoldProofs
  TreeProofs RoundProofs ExactProofs LfProofs CutCalProofs FoldProofs UnfoldProofs SpecSharp SharpProofs.
From Coq Require Import ZifyBool ZifyNat ZifyN.

Section Edge.
  Context {U : Unicode}.
  Notation iok := (either (wline_ok CrLf) (wtree_ok CrLf)).

  (** ** Places where nothing can be read *)

  Lemma white_key : forall c, In c [SP; TAB; CR; LF] -> ~ key_char c.
  Proof. intros c [<-|[<-|[<-|[<-|[]]]]] H; apply is_key_char_spec in H; discriminate H. Qed.
  Lemma stuck_nil : body_stuck [].
  Proof.
    assert (R : ~ reserved []) by (intros (w & r & _ & [E|E]); symmetry in E; apply app_eq_nil in E as [_ E]; discriminate E).
    destruct (prop_reads_ex [] R) as (p & r & P). destruct (after_breaks_ex r) as [j A].
    assert (I : item_reads [] p j) by now exists r. pose proof (item_suffix _ _ _ I) as [(x & E) _]. symmetry in E. apply app_eq_nil in E as [-> ->].
    apply (bs_here [] p); [intros ([|] & ? & ? & ?); easy|intros ([|] & ? & ? & ?); easy|easy].
  Qed.
  Lemma name_cut : forall k x k1 r, name_ok k -> name_ends x -> name_ok k1 -> name_ends r -> k ++ x = k1 ++ r -> k1 = k /\ r = x.
  Proof.
    intros k x k1 r K X K1 R E. apply TruncProofs.app_cases in E as [(y & -> & ->)|(y & -> & -> & Y)].
    - destruct y as [|c y]; [now rewrite app_nil_r|]. exfalso. apply (R c (y ++ x)); [easy|]. unfold name_ok in K. apply Forall_app in K as [_ K]. now inversion K.
    - exfalso. destruct y as [|c y]; [easy|]. apply (X c (y ++ r)); [easy|]. unfold name_ok in K1. apply Forall_app in K1 as [_ K1]. now inversion K1.
  Qed.
  Lemma calm_stuck : forall k x, name_ok k -> name_ends x -> last_line (k ++ x) -> no_break (k ++ x) ->
    ~ reserved (k ++ x) -> ~ ends (k ++ x) -> ~ begins (k ++ x) -> (k = [] \/ body_stuck x) -> body_stuck (k ++ x).
  Proof.
    intros k x K X L Nb R E B D. destruct (prop_reads_ex _ R) as (p & r & P). destruct (after_breaks_ex r) as [j A].
    assert (I : item_reads (k ++ x) p j) by now exists r.
    assert (G : j = k ++ x \/ body_stuck j -> body_stuck (k ++ x)).
    { intros G. destruct (list_eq_dec N.eq_dec j (k ++ x)) as [->|N]; [now apply (bs_here _ p)|]. destruct G as [G|G]; [easy|]. now apply (bs_prop _ p j). }
    apply G. destruct (item_last _ _ _ L I) as [->|[->|_]]; [right; apply stuck_nil|now left|].
    destruct P as (_ & rest & A1 & [LL|(_ & k1 & E1 & K1 & X1 & _)]).
    - right. assert (j = []) as ->; [|apply stuck_nil]. destruct LL as (w & k2 & qs & t & v & E2 & _ & _ & _ & V & _).
      assert (Lr : last_line rest).
      { apply (last_suffix (w ++ k2 ++ t ++ COLON :: v)). rewrite <- !app_assoc. cbn [app]. rewrite <- E2. exact L. }
      assert (Rr : rest = [] \/ break rest).
      { destruct V as [[(q & ->) _]|[[(q & ->) _]|[-> _]]]; [| |now left]; right.
        - assert (q = []) as -> by now apply (break_last [CR; LF]); [left|]. now left.
        - assert (q = []) as -> by now apply (break_last [LF]); [right|]. now right. }
      assert (r = []) as ->.
      { destruct Rr as [->|Rr]; [now destruct (after_last _ _ Lr A1)|]. destruct A1 as [(b & Bb & Er)|[N _]].
        - subst rest. now apply (break_last b).
        - exfalso. destruct N as [N1 N2]. destruct Rr as [->| ->]; [apply N2|apply N1]; now exists []. }
      apply (breaks_last []) in A; [now destruct A|]. intros a b F. destruct a; discriminate F.
    - destruct (name_cut k x k1 rest K X K1 X1 E1) as [-> ->]. assert (Lx : last_line x) by now apply last_suffix in L.
      destruct (after_last _ _ Lx A1) as [->| ->].
      + right. apply (breaks_last []) in A; [destruct A as [->| ->]; apply stuck_nil|]. intros a b F. destruct a; discriminate F.
      + destruct (breaks_last _ _ Lx A) as [->| ->]; [right; apply stuck_nil|]. destruct D as [->|D]; [now left|now right].
  Qed.
  (** What may follow a name: nothing, a semicolon or colon, a line break. *)
  Definition calm (x : str) : Prop := x = [] \/ (exists c r, x = c :: r /\ In c [SEMI; COLON]) \/ Forall (fun c => c = CR \/ c = LF) x.
  Lemma calm_ends : forall x, calm x -> name_ends x.
  Proof.
    intros x [->|[(c & r & -> & C)|F]] d q E; [easy| |].
    - injection E as <- _. intros H. apply is_key_char_spec in H. destruct C as [<-|[<-|[]]]; discriminate H.
    - subst x. inversion F as [|? ? D _]; subst. apply white_key. destruct D as [->| ->]; cbn; auto.
  Qed.
  Lemma calm_not_reserved : forall x, calm x -> ~ reserved x.
  Proof.
    intros x C (w & r & Wh & E).
    assert (Q : exists d q, x = w ++ d :: q /\ (d = 69 \/ d = 66)%N) by (destruct E as [->| ->]; [exists 69%N|exists 66%N]; eexists; split; try reflexivity; auto).
    destruct Q as (d & q & -> & D). destruct C as [C|[(c & r' & C & I)|F]].
    - destruct w; discriminate C.
    - destruct w as [|c' w]; [injection C as -> _|injection C as -> _].
      + destruct D as [->| ->], I as [I|[I|[]]]; discriminate I.
      + inversion Wh as [|? ? W' _]; subst. destruct I as [<-|[<-|[]]]; vm_compute in W'; intuition discriminate.
    - apply Forall_app in F as [_ F]. inversion F as [|? ? H _]; subst. destruct D as [->| ->], H as [H|H]; discriminate H.
  Qed.
  Lemma name_not_reserved : forall k x, name_ok k -> ~ has_prefix (lit "END") k -> ~ has_prefix (lit "BEGIN") k -> calm x -> ~ reserved (k ++ x).
  Proof.
    intros k x K E B C R. pose proof (calm_ends x C) as X. destruct k as [|c k]; [now apply (calm_not_reserved x C)|].
    destruct R as (w & r & Wh & R). destruct w as [|d w].
    - assert (Q : forall p, name_ok p -> (c :: k) ++ x = p ++ r -> has_prefix p (c :: k)).
      { intros p P Q. apply TruncProofs.app_cases in Q as [(y & -> & _)|(y & -> & -> & Y)]; [now exists y|].
        exfalso. destruct y as [|y1 y]; [easy|]. apply (X y1 (y ++ r)); [easy|]. unfold name_ok in P. apply Forall_app in P as [_ P]. now inversion P. }
      destruct R as [R|R]; [apply E|apply B]; apply Q; try exact R; now apply name_ok_spec.
    - inversion Wh as [|? ? W' _]; subst. inversion K as [|? ? K' _]; subst. destruct R as [R|R]; injection R as <- _; now apply white_key in W'.
  Qed.
  Lemma keyword_head : forall w i, (w = "begin:" \/ w = "end:")%string -> keyword (lit w) i -> exists c r, i = c :: r /\ key_char c.
  Proof.
    intros w i Hw (k & r & K & ->). destruct k as [|c k]; [destruct Hw as [->| ->]; discriminate K|]. exists c, (k ++ r). split; [easy|]. right.
    cbn [map] in K.
    assert (H : (lower_ascii c = 98 \/ lower_ascii c = 101)%N) by (destruct Hw as [->| ->]; injection K as K _; auto).
    assert (c = 98 \/ c = 66 \/ c = 101 \/ c = 69)%N as [->|[->|[->| ->]]]; [|easy..].
    unfold lower_ascii, is_upper, in_range in H. match type of H with context [if ?b then _ else _] => destruct b eqn:Z end; lia.
  Qed.
  Lemma calm_not_keyword : forall w x, (w = "begin:" \/ w = "end:")%string -> calm x -> ~ keyword (lit w) x.
  Proof. intros w x Hw C Kw. destruct (keyword_head w x Hw Kw) as (c & r & -> & K). now apply (calm_ends _ C c r). Qed.
  Lemma line_stuck : forall k x, name_ok k -> ~ has_prefix (lit "END") k -> ~ has_prefix (lit "BEGIN") k -> calm x -> last_line (k ++ x) ->
    no_break (k ++ x) -> ~ ends (k ++ x) -> ~ begins (k ++ x) -> body_stuck (k ++ x).
  Proof.
    intros k x K E B C L Nb Ne Ng. pose proof (calm_ends x C) as X. apply calm_stuck; try easy; [now apply name_not_reserved|].
    destruct k as [|c k]; [now left|right].
    destruct (after_breaks_ex x) as [j A]. assert (Lx : last_line x) by now apply last_suffix in L. 
    destruct (breaks_last _ _ Lx A) as [->| ->].
    - (* a line break at the start of x *)
      destruct A as (b & Hb & -> & _). rewrite app_nil_r in *. destruct Hb as [|b s Hb Hs]; [apply stuck_nil|].
      assert (s = []) as -> by now apply (break_last b). rewrite app_nil_r in *.
      (* not read as an item of its own, but skipped *)
      destruct (prop_reads_ex b (calm_not_reserved b C)) as (p & r & P). destruct (after_breaks_ex r) as [j' A'].
      assert (I : item_reads b p j') by now exists r. destruct (item_last _ _ _ Lx I) as [->|[->|((d & q & -> & _) & Ll)]].
      + apply (bs_prop _ p []); try easy; [apply calm_not_keyword; auto|apply calm_not_keyword; auto|destruct Hb as [->| ->]; discriminate|apply stuck_nil].
      + apply (bs_here _ p); try easy; apply calm_not_keyword; auto.
      + exfalso. destruct (item_suffix _ _ _ I) as [(y & Y) N]. destruct Hb as [->| ->]; cbn in Ll.
        * destruct y as [|y1 [|y2 y]]; [injection Y as <- <-; cbn in Ll; lia|injection Y as _ <- _; destruct N as [N _]; discriminate N|injection Y as _ _ Y; destruct y; discriminate Y].
        * lia.
    - apply (calm_stuck [] x); cbn [app]; try easy; try (apply calm_not_keyword; now auto); [constructor| |now apply calm_not_reserved|now left].
      destruct A as (b & Hb & E2 & N). now apply no_break_spec.
  Qed.
  Lemma short_calm : forall e, short e -> calm e /\ calm (CR :: e).
  Proof.
    intros e [<-|[<-|[<-|[<-|[]]]]]; split; try (now left); right; right; repeat (apply Forall_cons; [auto|]); apply Forall_nil.
  Qed.
  (** Lines that were cut off. *)
  Lemma cut_line_stuck : forall l u z e j, wline_ok CrLf l -> ~ In LF (wline_text l) -> wline_text l ++ [CR; LF] = u ++ z -> z <> [] -> short e ->
    after_breaks (u ++ e) j -> body_stuck j.
  Proof.
    intros l u z e j O G E Z Se A. symmetry in E. assert (L : last_line (u ++ e)) by now apply (last_cut u z (wline_text l)).
    destruct (breaks_last _ _ L A) as [->| ->]; [apply stuck_nil|]. assert (Nb : no_break (u ++ e)) by (destruct A as (b & _ & _ & N); now apply no_break_spec).
    destruct (line_start l [] O) as (Ne & Ng & _). rewrite app_nil_r, <- E in Ne, Ng.
    assert (Ne' : ~ ends (u ++ e)) by now apply (cut_not_ends u z).
    assert (Ng' : ~ begins (u ++ e)).
    { intros (kk & r & K & E2). destruct (short_keyword _ _ _ _ _ Se K (or_introl eq_refl) E2) as [x ->]. apply Ng. exists kk, (x ++ z). now rewrite <- app_assoc. }
    destruct (short_calm e Se) as [C1 C2].
    assert (Q : exists k t, wline_text l = k ++ t /\ name_ok k /\ ~ has_prefix (lit "END") k /\ ~ has_prefix (lit "BEGIN") k
      /\ (t = [] \/ exists c r, t = c :: r /\ In c [SEMI; COLON])).
    { destruct l as [k qs v|k]; cbn [wline_text wline_ok] in *.
      - destruct O as ((K & K1 & K2 & _) & _). exists k. eexists. split; [reflexivity|]. split; [easy|]. split; [easy|]. split; [easy|]. right.
        destruct qs as [|q qs]; cbn [map concat app]; [now eexists _, _; split; [reflexivity|right; left]|]. unfold wparam_text at 1. cbn [app]. eexists _, _. split; [reflexivity|now left].
      - destruct O as ((K & K1 & K2 & _) & _). exists k, []. rewrite app_nil_r. repeat (split; [easy|]). now left. }
    destruct Q as (k & t & Q & K & K1 & K2 & T). rewrite Q, <- app_assoc in E.
    apply TruncProofs.app_cases in E as [(x & -> & E)|(x & -> & E & X)].
    - rewrite <- app_assoc in *. apply line_stuck; try easy.
      destruct T as [->|(c & r & -> & I)].
      + cbn [app] in E. destruct x as [|x1 [|x2 x]]; [easy|injection E as <- _; easy|]. injection E as _ _ E. symmetry in E. apply app_eq_nil in E as [_ ->]. easy.
      + destruct x as [|x1 x]; [easy|]. injection E as <- _. right. left. exists c, (x ++ e). easy.
    - assert (K' : name_ok u) by (unfold name_ok in K; apply Forall_app in K; apply K).
      apply line_stuck; try easy; [intros (y & ->); apply K1|intros (y & ->); apply K2]; exists (y ++ x); now rewrite <- app_assoc.
  Qed.

  (** ** Before and after other items *)

  Lemma stuck_after : forall its tail, Forall iok its -> no_break tail -> body_stuck tail -> body_stuck (concat (map strict_item its) ++ tail).
  Proof.
    intros its tail O N B. induction O as [|x its Ox O IHl]; [easy|]. cbn [map concat]. rewrite <- app_assoc.
    pose proof (self_after _ (concat_start its _ O N)) as A. destruct Ox as [l Ol|w Ow]; cbn [strict_item].
    - rewrite <- app_assoc. destruct (line_start l (concat (map strict_item its) ++ tail) Ol) as (S1 & S2 & S3).
      eapply bs_prop; [exact S1|exact S2|apply line_item; eassumption| |exact IHl]. now apply crlf_longer.
    - eapply bs_comp; [|exact IHl]. now apply render_on.
  Qed.
  Lemma stuck_after_breaks : forall its tail, Forall iok its -> (forall j, after_breaks tail j -> body_stuck j) ->
    forall j, after_breaks (concat (map strict_item its) ++ tail) j -> body_stuck j.
  Proof.
    intros its tail O H. induction O as [|x its Ox O IHl]; [easy|]. cbn [map concat]. rewrite <- app_assoc. intros j A.
    assert (Nb : no_break (strict_item x ++ concat (map strict_item its) ++ tail)).
    { destruct Ox as [l Ol|[m js] Ot]; cbn [strict_item]; [rewrite <- app_assoc; now apply line_start|]. rewrite render_eq. apply no_break_head; discriminate. }
    apply no_breaks_self in A as ->; [|easy]. destruct (after_breaks_ex (concat (map strict_item its) ++ tail)) as [j' A']. specialize (IHl _ A').
    destruct Ox as [l Ol|w Ow]; cbn [strict_item].
    - rewrite <- app_assoc. destruct (line_start l (concat (map strict_item its) ++ tail) Ol) as (S1 & S2 & S3).
      eapply bs_prop; [exact S1|exact S2|apply line_item; eassumption| |exact IHl]. now apply crlf_longer.
    - eapply bs_comp; [|exact IHl]. now apply render_on.
  Qed.
  Lemma fails_after : forall n its tail, Forall iok its -> no_break tail -> body_fails n tail -> body_fails n (concat (map strict_item its) ++ tail).
  Proof.
    intros n its tail O N B. induction O as [|x its Ox O IHl]; [easy|]. cbn [map concat]. rewrite <- app_assoc.
    pose proof (self_after _ (concat_start its _ O N)) as A. destruct Ox as [l Ol|w Ow]; cbn [strict_item].
    - rewrite <- app_assoc. destruct (line_start l (concat (map strict_item its) ++ tail) Ol) as (S1 & S2 & S3).
      eapply bf_next_prop; [exact S1|now left|apply line_item; eassumption| |exact IHl]. now apply crlf_longer.
    - eapply bf_next_comp; [|exact IHl]. now apply render_on.
  Qed.
  (** A sub-component that was cut off. *)
  Lemma inside_fails_e : forall n t u z e, wtree_ok CrLf t -> single t -> strict_text t = u ++ z -> short e ->
    5 <= length u -> 2 < length z -> no_break (u ++ e) /\ body_fails n (u ++ e).
  Proof.
    intros n t u z e Ot Gt E Se L5 Lz.
    assert (R : exists v, u = lit "BEGIN" ++ v).
    { destruct t as [m js]. rewrite render_eq in E.
      change (lit "BEGIN:" ++ m ++ [CR; LF] ++ btext m js ++ [CR; LF]) with (lit "BEGIN" ++ lit ":" ++ m ++ [CR; LF] ++ btext m js ++ [CR; LF]) in E.
      symmetry in E. apply TruncProofs.app_cases in E as [(v & -> & _)|(v & E & _ & V)]; [now exists v|].
      apply (f_equal (@length N)) in E. rewrite app_length in E. destruct v; [easy|]. cbn in E. lia. }
    destruct R as [v ->]. assert (N : no_break ((lit "BEGIN" ++ v) ++ e)) by (apply no_break_head; discriminate). split; [easy|].
    destruct (all_cut t Ot Gt (lit "BEGIN" ++ v) z e _ E Lz Se (self_after _ N)) as [C _]. rewrite <- app_assoc in *.
    assert (Rv : reserved (lit "BEGIN" ++ v ++ e)) by (exists [], (v ++ e); split; [constructor|now right]).
    assert (Ne : ~ ends (lit "BEGIN" ++ v ++ e)) by (intros (k & x & K & Q); destruct k as [|c k]; [discriminate K|]; injection Q as <- _; discriminate K).
    pose proof (component_sound (E := verror) (S (length (lit "BEGIN" ++ v ++ e))) _ N) as P.
    destruct (component (S (length (lit "BEGIN" ++ v ++ e))) (lit "BEGIN" ++ v ++ e)) as [r c|er|er|] eqn:Q.
    - now apply C in P.
    - apply bf_prop; [easy|tauto|easy].
    - now apply bf_comp.
    - exfalso. pose proof (component_total (E := verror) (lit "BEGIN" ++ v ++ e)) as T. unfold component_p in T. now rewrite Q in T.
  Qed.
  Lemma end_fails : forall n w z, name_ok n -> lit "END:" ++ n ++ [CR; LF] = (lit "END" ++ w) ++ z -> 2 < length z -> body_fails n (lit "END" ++ w).
  Proof.
    intros n w z Hn E Lz. rewrite <- app_assoc in E. change (lit "END:" ++ n ++ [CR; LF]) with (lit "END" ++ COLON :: n ++ [CR; LF]) in E.
    apply app_inv_head in E. destruct w as [|c w].
    - rewrite app_nil_r. apply bf_prop; [apply keyword_not; reflexivity|left; apply keyword_not; reflexivity|].
      exists [], []. split; [constructor|]. now left.
    - injection E as <- E. change (lit "END" ++ COLON :: w) with (lit "END:" ++ w). apply bf_end; [easy|]. intros (r & ->).
      rewrite <- app_assoc in E. apply app_inv_head in E. apply (f_equal (@length N)) in E. rewrite app_length in E. cbn in E. lia.
  Qed.
  Lemma begin_prefix_stuck : forall u z, lit "BEGIN" = u ++ z -> z <> [] -> no_break u /\ body_stuck u.
  Proof.
    intros u z E Z.
    assert (Q : In u [[]; [66]; [66; 69]; [66; 69; 71]; [66; 69; 71; 73]]%N).
    { destruct u as [|a u]; [cbn; auto|]. injection E as <- E. destruct u as [|a u]; [cbn; auto|]. injection E as <- E. destruct u as [|a u]; [cbn; auto|].
      injection E as <- E. destruct u as [|a u]; [cbn; auto|]. injection E as <- E. destruct u as [|a u]; [cbn; auto 6|]. injection E as <- E.
      symmetry in E. apply app_eq_nil in E as [_ E]. easy. }
    assert (P : u = [] \/ body_stuck (u ++ [])).
    { destruct u as [|c u]; [now left|right].
      assert (L : ~ In LF (c :: u)).
      { intros I. assert (J : In LF (lit "BEGIN")) by (rewrite E; apply in_app_iff; now left). vm_compute in J. intuition discriminate. }
      apply line_stuck; rewrite ?app_nil_r; try (now left).
      - apply name_ok_spec. clear - Q. destruct Q as [Q|[Q|[Q|[Q|[Q|[]]]]]]; try discriminate Q; rewrite <- Q; reflexivity.
      - intros (r & R). rewrite R in E. discriminate E.
      - intros (r & R). rewrite R, <- app_assoc in E. rewrite <- (app_nil_r (lit "BEGIN")) in E at 1. apply app_inv_head in E. symmetry in E. apply app_eq_nil in E as [_ E]. easy.
      - intros a b F. exfalso. apply L. rewrite F. apply in_app_iff. right. now left.
      - injection E as <- _. apply no_break_head; discriminate.
      - apply keyword_not. clear - Q. destruct Q as [Q|[Q|[Q|[Q|[Q|[]]]]]]; try discriminate Q; rewrite <- Q; reflexivity.
      - apply keyword_not. clear - Q. destruct Q as [Q|[Q|[Q|[Q|[Q|[]]]]]]; try discriminate Q; rewrite <- Q; reflexivity. }
    rewrite app_nil_r in P. split; [destruct u as [|c u]; [apply no_break_nil|injection E as <- _; apply no_break_head; discriminate]|].
    destruct P as [->|P]; [apply stuck_nil|exact P].
  Qed.
  Lemma end_prefix_stuck : forall u z, lit "END" = u ++ z -> z <> [] -> no_break u /\ body_stuck u.
  Proof.
    intros u z E Z.
    assert (Q : In u [[]; [69]; [69; 78]]%N).
    { destruct u as [|a u]; [cbn; auto|]. injection E as <- E. destruct u as [|a u]; [cbn; auto|]. injection E as <- E. destruct u as [|a u]; [cbn; auto|].
      injection E as <- E. symmetry in E. apply app_eq_nil in E as [_ E]. easy. }
    assert (P : u = [] \/ body_stuck (u ++ [])).
    { destruct u as [|c u]; [now left|right].
      assert (L : ~ In LF (c :: u)).
      { intros I. assert (J : In LF (lit "END")) by (rewrite E; apply in_app_iff; now left). vm_compute in J. intuition discriminate. }
      apply line_stuck; rewrite ?app_nil_r; try (now left).
      - apply name_ok_spec. clear - Q. destruct Q as [Q|[Q|[Q|[]]]]; try discriminate Q; rewrite <- Q; reflexivity.
      - intros (r & R). rewrite R, <- app_assoc in E. rewrite <- (app_nil_r (lit "END")) in E at 1. apply app_inv_head in E. symmetry in E. apply app_eq_nil in E as [_ E]. easy.
      - intros (r & R). rewrite R in E. discriminate E.
      - intros a b F. exfalso. apply L. rewrite F. apply in_app_iff. right. now left.
      - injection E as <- _. apply no_break_head; discriminate.
      - apply keyword_not. clear - Q. destruct Q as [Q|[Q|[Q|[]]]]; try discriminate Q; rewrite <- Q; reflexivity.
      - apply keyword_not. clear - Q. destruct Q as [Q|[Q|[Q|[]]]]; try discriminate Q; rewrite <- Q; reflexivity. }
    rewrite app_nil_r in P. split; [destruct u as [|c u]; [apply no_break_nil|injection E as <- _; apply no_break_head; discriminate]|].
    destruct P as [->|P]; [apply stuck_nil|exact P].
  Qed.
  (** A sub-component that lacks at most its last line break. *)
  Lemma whole_stuck : forall t u z, wtree_ok CrLf t -> strict_text t = u ++ z -> length z <= 2 -> no_break u /\ body_stuck u.
  Proof.
    intros [n its] u z O E L. rewrite render_eq in E. inversion O as [? ? Hn Hits]; subst.
    assert (exists y, u = lit "BEGIN:" ++ n ++ [CR; LF] ++ btext n its ++ y /\ [CR; LF] = y ++ z) as (y & -> & Ey).
    { rewrite !app_assoc in E. apply TruncProofs.app_cases in E as [(y & E & E3)|(y & -> & E3 & _)].
      - assert (y = []) as ->.
        { apply (f_equal (@length N)) in E3. rewrite app_length in E3. cbn [length] in E3. destruct y; [easy|cbn [length] in E3; lia]. }
        exists []. rewrite !app_assoc, app_nil_r in *. now rewrite E.
      - exists y. rewrite !app_assoc. easy. }
    split; [apply no_break_head; discriminate|]. destruct (after_breaks_ex y) as [j A].
    apply (bs_comp _ (wtree_read (W n its)) j); [now apply (tree_on _ O n its eq_refl)|].
    assert (S : y = [] \/ y = [CR] \/ y = [CR; LF]).
    { destruct y as [|y1 [|y2 y]]; [now left|injection Ey as <- _; auto|]. injection Ey as <- <- Ey. symmetry in Ey. apply app_eq_nil in Ey as [-> _]. auto. }
    destruct S as [->|[->| ->]].
    - apply (breaks_one [] [] j) in A as <-; [apply stuck_nil|apply self_after, no_break_nil].
    - apply (breaks_one [CR] [CR] j) in A as <-; [|apply self_after; split; reflexivity].
      apply (line_stuck [] [CR]); cbn [app]; try (apply keyword_not; reflexivity).
      + constructor.
      + intros (r & R). discriminate R.
      + intros (r & R). discriminate R.
      + right. right. apply Forall_cons; [now left|apply Forall_nil].
      + intros a b F. destruct a as [|a1 [|a2 a]]; discriminate F.
      + split; reflexivity.
    - apply (breaks_one [CR; LF] [] j) in A as <-; [apply stuck_nil|]. exists [CR; LF]. split; [|split; [easy|]].
      + change [CR; LF] with ([CR; LF] ++ []). constructor; [now left|constructor].
      + apply no_break_spec, no_break_nil.
  Qed.

  (** ** Documents *)

  Lemma body_cases : forall n its u z, name_ok n -> Forall iok its -> Forall (either (fun l => ~ In LF (wline_text l)) single) its ->
    concat (map strict_item its) ++ lit "END:" ++ n ++ [CR; LF] = u ++ z -> 2 < length z ->
    (forall j, after_breaks u j -> body_stuck j)
    \/ exists its1 v, u = concat (map strict_item its1) ++ v
      /\ ((exists t its2 z, its = its1 ++ inr t :: its2 /\ strict_text t = v ++ z /\ 5 <= length v /\ 2 < length z) \/ its1 = its /\ exists w, v = lit "END" ++ w).
  Proof.
    intros n its u z Hn O G E L. revert u E. induction O as [|x its Ox O IH]; intros u E.
    - cbn [map concat app] in E. destruct (Nat.le_gt_cases 3 (length u)) as [Lu|Lu].
      + right. exists [], u. split; [easy|]. right. split; [easy|].
        change (lit "END:" ++ n ++ [CR; LF]) with (lit "END" ++ COLON :: n ++ [CR; LF]) in E.
        apply TruncProofs.app_cases in E as [(x & E & _)|(x & -> & _)]; [|now exists x].
        destruct x as [|c x]; [exists []; rewrite app_nil_r in E |- *; now symmetry|]. apply (f_equal (@length N)) in E. rewrite app_length in E. cbn in E. lia.
      + left. change (lit "END:" ++ n ++ [CR; LF]) with (lit "END" ++ COLON :: n ++ [CR; LF]) in E. symmetry in E.
        apply TruncProofs.app_cases in E as [(x & -> & _)|(x & E & _ & X)]; [rewrite app_length in Lu; cbn in Lu; lia|].
        destruct (end_prefix_stuck u x E X) as [N B]. intros j A. now apply no_breaks_self in A as ->.
    - inversion G as [|? ? Gx G']; subst. cbn [map concat] in E. rewrite <- app_assoc in E. symmetry in E.
      apply TruncProofs.app_cases in E as [(u' & -> & E)|(z1 & E & _ & Z)].
      + destruct (IH G' u' E) as [B|(its1 & v & -> & D)].
        * left. intros j A. assert (Nb : no_break (strict_item x ++ u')).
          { destruct Ox as [l Ol|[m js] Ot]; cbn [strict_item]; [rewrite <- app_assoc; now apply line_start|]. rewrite render_eq. apply no_break_head; discriminate. }
          apply no_breaks_self in A as ->; [|easy]. destruct (after_breaks_ex u') as [j' A']. specialize (B _ A').
          destruct Ox as [l Ol|w Ow]; cbn [strict_item].
          -- rewrite <- app_assoc. destruct (line_start l u' Ol) as (S1 & S2 & S3).
             eapply bs_prop; [exact S1|exact S2|apply line_item; eassumption| |exact B]. now apply crlf_longer.
          -- eapply bs_comp; [|exact B]. now apply render_on.
        * right. exists (x :: its1), v. cbn [map concat]. rewrite <- app_assoc. split; [easy|].
          destruct D as [(t & its2 & z' & -> & D)|[-> D]]; [left|right; now split]. exists t, its2, z'. now split.
      + destruct Ox as [l Ol|t Ot]; cbn [strict_item] in E.
        * left. intros j A. inversion Gx as [? Gl|]; subst. apply (cut_line_stuck l u z1 [] j); try easy; [now left|now rewrite app_nil_r].
        * inversion Gx as [|? Gt]; subst. destruct (Nat.le_gt_cases (length z1) 2) as [L2|L2].
          { left. intros j A. destruct (whole_stuck t u z1 Ot E L2) as [N B]. now apply no_breaks_self in A as ->. }
          destruct (Nat.le_gt_cases 5 (length u)) as [L5|L5].
          { right. exists [], u. split; [easy|]. left. exists t, its, z1. auto. }
          left. destruct t as [m js]. rewrite render_eq in E.
          change (lit "BEGIN:" ++ m ++ [CR; LF] ++ btext m js ++ [CR; LF]) with (lit "BEGIN" ++ COLON :: m ++ [CR; LF] ++ btext m js ++ [CR; LF]) in E. symmetry in E.
          apply TruncProofs.app_cases in E as [(y & -> & _)|(y & E & _ & Y)]; [rewrite app_length in L5; cbn in L5; lia|].
          destruct (begin_prefix_stuck u y E Y) as [N B]. intros j A. now apply no_breaks_self in A as ->.
  Qed.
  Lemma within_fails : forall n its its1 v e, name_ok n -> Forall iok its -> Forall (either (fun l => ~ In LF (wline_text l)) single) its -> short e ->
    (exists t its2 z, its = its1 ++ inr t :: its2 /\ strict_text t = v ++ z /\ 5 <= length v /\ 2 < length z)
      \/ its1 = its /\ e = [] /\ (exists w z, v = lit "END" ++ w /\ lit "END:" ++ n ++ [CR; LF] = v ++ z /\ 2 < length z) ->
    text_fails (lit "BEGIN:" ++ n ++ [CR; LF] ++ concat (map strict_item its1) ++ v ++ e).
  Proof.
    intros n its its1 v e Hn O G Se D. set (i := concat (map strict_item its1) ++ v ++ e).
    assert (Q : no_break (v ++ e) /\ body_fails n (v ++ e) /\ Forall iok its1).
    { destruct D as [(t & its2 & z & -> & D)|(-> & -> & w & z & -> & E & L)].
      - apply Forall_app in O as [O1 O2]. apply Forall_app in G as [_ G2]. inversion O2 as [|? ? Ot _]; inversion G2 as [|? ? Gt _]; subst.
        inversion Ot; inversion Gt; subst. destruct (inside_fails_e n t v z e) as [N B]; try easy.
      - rewrite app_nil_r. split; [apply no_break_head; discriminate|]. split; [now apply (end_fails n w z)|easy]. }
    destruct Q as (N & B & O1). exists (lit "BEGIN:" ++ n ++ [CR; LF] ++ i). split; [apply self_after, no_break_head; discriminate|].
    apply (cf_comp (lit "BEGIN:") n ([CR; LF] ++ i) i); try easy.
    - apply (proj1 (break_ends n _)).
    - apply (proj2 (break_ends n _)); [easy|]. now apply self_after, concat_start.
    - now apply fails_after.
  Qed.
  Lemma begin_stuck : forall n u, name_ok n -> (forall j, after_breaks u j -> body_stuck j) -> text_other (lit "BEGIN:" ++ n ++ [CR; LF] ++ u).
  Proof.
    intros n u Hn B. destruct (after_breaks_ex u) as [j A]. eexists. split; [apply self_after, no_break_head; discriminate|]. right. left.
    apply (cs_comp (lit "BEGIN:") n ([CR; LF] ++ u) j); try easy; [apply (proj1 (break_ends n u))|now apply (proj2 (break_ends n u))|now apply B].
  Qed.
  (** The first line. *)
  Lemma first_stuck : forall n u z, name_ok n -> lit "BEGIN:" ++ n ++ [CR; LF] = u ++ z -> z <> [] -> text_other u.
  Proof.
    intros n u z Hn E Z. symmetry in E. apply TruncProofs.app_cases in E as [(x & -> & E)|(x & E & _ & X)].
    - eexists. split; [apply self_after, no_break_head; discriminate|]. right. left.
      assert (B : body_stuck [CR]).
      { apply (line_stuck [] [CR]); cbn [app]; try (apply keyword_not; reflexivity).
        + constructor.
        + intros (r & R). discriminate R.
        + intros (r & R). discriminate R.
        + right. right. apply Forall_cons; [now left|apply Forall_nil].
        + intros a b F. destruct a as [|a1 [|a2 a]]; discriminate F.
        + split; reflexivity. }
      symmetry in E. apply TruncProofs.app_cases in E as [(y & -> & E)|(y & -> & E & Y)].
      + destruct y as [|y1 [|y2 y]].
        * rewrite app_nil_r. rewrite <- (app_nil_r (lit "BEGIN:" ++ n)), <- app_assoc. apply (cs_comp (lit "BEGIN:") n [] []); try easy; [apply self_after, no_break_nil|apply stuck_nil].
        * injection E as <- _. apply (cs_comp (lit "BEGIN:") n [CR] [CR]); try easy; [|apply self_after; split; reflexivity].
          intros c r F. injection F as <- _. apply white_key. cbn. auto.
        * injection E as _ _ E. symmetry in E. apply app_eq_nil in E as [_ ->]. easy.
      + assert (Hx : name_ok x) by (unfold name_ok in Hn; apply Forall_app in Hn; apply Hn).
        rewrite <- (app_nil_r (lit "BEGIN:" ++ x)), <- app_assoc. apply (cs_comp (lit "BEGIN:") x [] []); try easy; [apply self_after, no_break_nil|apply stuck_nil].
    - assert (Nb : no_break u) by (destruct u as [|c u]; [apply no_break_nil|injection E as <- _; apply no_break_head; discriminate]).
      exists u. split; [now apply self_after|]. left. intros (k & r & K & ->). apply (f_equal (@length N)) in K, E. rewrite map_length in K.
      rewrite !app_length in E. destruct x; [easy|]. cbn in K, E. lia.
  Qed.
  Theorem doc_cut_exact : forall n its u z, wtree_ok CrLf (W n its) -> single (W n its) -> strict_text (W n its) = u ++ z -> 2 < length z ->
    (read_calendar u = Ok (mk_pcal [] []) <-> ~ doc_within n its u) /\ ((exists e, read_calendar u = Err e) <-> doc_within n its u).
  Proof.
    intros n its u z O G E L. inversion O as [? ? Hn Hits]; subst. inversion G as [? ? Gits]; subst.
    assert (F : doc_within n its u -> text_fails u).
    { intros (its1 & v & -> & D). pose proof (within_fails n its its1 v [] Hn Hits Gits (or_introl eq_refl)) as T. rewrite app_nil_r in T. apply T.
      destruct D as [D|(-> & w & ->)]; [now left|right]. split; [easy|]. split; [easy|]. exists w, z. split; [easy|]. split; [|easy].
      rewrite render_eq in E. unfold btext in E. rewrite <- !app_assoc in E. do 4 apply app_inv_head in E. now rewrite <- app_assoc. }
    assert (S : text_other u \/ doc_within n its u).
    { rewrite render_eq in E. unfold btext in E. rewrite <- !app_assoc in E. rewrite (app_assoc n), (app_assoc (lit "BEGIN:")) in E. symmetry in E.
      apply TruncProofs.app_cases in E as [(u' & -> & E)|(y & E & _ & Y)]; [|left; now apply (first_stuck n u y)].
      destruct (body_cases n its u' z Hn Hits Gits E L) as [B|(its1 & v & -> & D)].
      - left. rewrite <- !app_assoc. now apply begin_stuck.
      - right. exists its1, v. rewrite <- !app_assoc. now split. }
    destruct (text_one u) as (_ & _ & _ & X). destruct (read_calendar_exact u) as [R1 R2].
    assert (T : text_fails u <-> doc_within n its u).
    { split; [|easy]. intros T. destruct S as [S|S]; [|easy]. exfalso. apply X. split; [easy|now left]. }
    split; [|now rewrite R2]. split.
    - intros R D. apply T in D. apply R2 in D as [e D]. rewrite R in D. discriminate.
    - intros N. apply R1. right. right. split; [|easy]. now destruct S.
  Qed.

  (** ** Written texts *)

  Lemma unfold_cut1 : forall s0 z w, s0 ++ z = w ++ [LF] -> z <> [] ->
    exists u e z', unfold s0 = u ++ e /\ unfold (s0 ++ z) = u ++ z' /\ z' <> [] /\ short e.
  Proof.
    assert (NE : forall q, unfold (q ++ [LF]) <> []).
    { intros q Q. assert (B : lf_blank (q ++ [LF])) by (apply lf_unfold; rewrite Q; easy). destruct (B q [] eq_refl) as (c & r & R & _). discriminate R. }
    intros s0 z w E Z.
    assert (exists z0, z = z0 ++ [LF]) as [z0 ->].
    { destruct z as [|d z _] using rev_ind; [easy|]. rewrite app_assoc in E. apply app_inj_tail in E as [_ ->]. now exists z. }
    destruct (across_dec s0 (z0 ++ [LF])) as [A|A].
    - destruct (across_parts _ _ A) as (a' & x & y & b' & -> & Ez & X & M & Sx & Na & _).
      exists (unfold a'), x, (unfold b'). split; [|split; [|split]].
      + rewrite unfold_app, Sx; [easy|]. intros (a1 & x1 & y1 & b1 & -> & -> & R). apply Na. exists a1, x1, y1, (b1 ++ y ++ b'). rewrite <- !app_assoc. tauto.
      + rewrite Ez, <- app_assoc, unfold_app by easy. now rewrite (app_assoc x), (mark_unfold _ _ M).
      + destruct b' as [|d b' _] using rev_ind.
        * exfalso. rewrite app_nil_r in Ez. subst y. destruct M as (d & B & [M|M]).
          -- rewrite app_assoc in M. change [CR; LF; d] with ([CR; LF] ++ [d]) in M. apply app_inj_tail in M as [_ <-]. destruct B as [B|B]; discriminate B.
          -- rewrite app_assoc in M. change [LF; d] with ([LF] ++ [d]) in M. apply app_inj_tail in M as [_ <-]. destruct B as [B|B]; discriminate B.
        * rewrite app_assoc in Ez. apply app_inj_tail in Ez as [_ <-]. apply NE.
      + destruct y as [|y1 y].
        { exfalso. rewrite app_nil_r in M. pose proof (mark_unfold x [] M) as Q. rewrite app_nil_r, Sx in Q. easy. }
        destruct (mark_parts _ _ M X ltac:(easy)) as (d & _ & [(-> & _)|[(-> & _)|(-> & _)]]); cbn; auto.
    - exists (unfold s0), [], (unfold (z0 ++ [LF])). rewrite app_nil_r. split; [easy|]. split; [now apply unfold_app|]. split; [apply NE|now left].
  Qed.
  Lemma list_cut : forall ts (rest s0 z : str), concat ts ++ rest = s0 ++ z ->
    (exists x, s0 = concat ts ++ x /\ rest = x ++ z) \/ exists l t r u z', ts = l ++ t :: r /\ s0 = concat l ++ u /\ t = u ++ z' /\ z' <> [].
  Proof.
    induction ts as [|t ts IH]; intros rest s0 z E; [left; now exists s0|]. cbn [concat] in E. rewrite <- app_assoc in E. symmetry in E.
    apply TruncProofs.app_cases in E as [(x & -> & E)|(x & -> & _ & X)].
    - destruct (IH _ _ _ E) as [(y & -> & ->)|(l & t' & r & u & z' & -> & -> & -> & Z)].
      + left. exists y. cbn [concat]. now rewrite <- app_assoc.
      + right. exists (t :: l), (u ++ z'), r, u, z'. cbn [concat]. now rewrite <- app_assoc.
    - right. exists [], (s0 ++ x), ts, s0, x. easy.
  Qed.
  Lemma solid_prefix : forall u z, solid (u ++ z) -> solid u.
  Proof. intros [|c u] z S; [easy|exact S]. Qed.
  Lemma subs_unfold : forall cs ss r, Forall tree_fine cs -> Forall2 text_of cs ss -> solid r ->
    unfold (concat ss ++ r) = concat (map (fun c => strict_text (wtree_of c)) cs) ++ unfold r /\ solid (concat ss ++ r).
  Proof.
    intros cs ss r C F R. induction F as [|c s cs ss T F IH]; [easy|]. inversion C as [|? ? Gc Gs]; subst. destruct (IH Gs) as [E S].
    cbn [concat map]. rewrite <- !app_assoc. split; [|now apply (text_solid c)]. rewrite (tree_unfold c Gc s _ T S), E, strict_render. easy.
  Qed.
  Lemma items_text : forall ps cs, concat (map strict_item (map (fun p => inl (line_of p)) ps ++ map (fun c => inr (wtree_of c)) cs))
    = concat (map (fun p => wline_text (line_of p) ++ [CR; LF]) ps) ++ concat (map (fun c => strict_text (wtree_of c)) cs).
  Proof. intros ps cs. now rewrite map_app, concat_app, !map_map. Qed.
  Lemma prefix_unfold : forall k ps ts cs ss r, name_ok k -> Forall line_good ps -> Forall2 (fun p t => prop_write p = Ret t) ps ts -> Forall tree_fine cs ->
    Forall2 text_of cs ss -> solid r -> unfold (lit "BEGIN:" ++ k ++ [CR; LF] ++ concat ts ++ concat ss ++ r)
      = lit "BEGIN:" ++ k ++ [CR; LF] ++ concat (map strict_item (map (fun p => inl (line_of p)) ps ++ map (fun c => inr (wtree_of c)) cs)) ++ unfold r.
  Proof.
    intros k ps ts cs ss r K P F1 C F2 R. destruct (subs_unfold cs ss r C F2 R) as [E1 S1]. destruct (props_unfold ps ts _ P F1 S1) as [E2 S2].
    rewrite begin_unfold; [|intros I; vm_compute in I; intuition discriminate|easy|easy]. rewrite E2, E1, items_text, <- !app_assoc. easy.
  Qed.
  Lemma forall2_split : forall {A B} (R : A -> B -> Prop) l1 l t r, Forall2 R l1 (l ++ t :: r) ->
    exists a x b, l1 = a ++ x :: b /\ Forall2 R a l /\ R x t /\ Forall2 R b r.
  Proof.
    intros A B R l1 l t r F. apply Forall2_app_inv_r in F as (a & b & F1 & F2 & ->). inversion F2 as [|x ? b' ? Rx F3]; subst. exists a, x, b'. auto.
  Qed.
  Lemma begin_head : forall v z m, v ++ z = lit "BEGIN" ++ m -> 5 <= length v -> exists v', v = lit "BEGIN" ++ v'.
  Proof.
    intros v z m E L. apply TruncProofs.app_cases in E as [(x & -> & _)|(x & E & _ & X)]; [now exists x|].
    apply (f_equal (@length N)) in E. rewrite app_length in E. destruct x; [easy|]. cbn in E. lia.
  Qed.
  Lemma text_begins : forall t s, text_of t s -> exists m, s = lit "BEGIN" ++ COLON :: m.
  Proof. intros t s T. inversion T; subst. eexists. cbn [lit app]. reflexivity. Qed.
  Lemma unfold_begin : forall v, unfold (lit "BEGIN" ++ v) = lit "BEGIN" ++ unfold v.
  Proof.
    intros v. rewrite unfold_app; [reflexivity|]. intros (a & x & y & b & E & _ & X & Y & M). destruct (mark_parts _ _ M X Y) as (c & _ & D).
    assert (I : In LF (lit "BEGIN") \/ In CR (lit "BEGIN")).
    { rewrite E. destruct D as [(-> & _)|[(-> & _)|(-> & _)]]; rewrite !in_app_iff; cbn; auto. }
    destruct I as [I|I]; vm_compute in I; intuition discriminate.
  Qed.
  Lemma end_prefix_unfold : forall k x z, name_ok k -> lit "END:" ++ k ++ [CR; LF] = x ++ z -> 2 < length z -> unfold x = x.
  Proof.
    intros k x z K E L. apply unfold_mark_free, mark_free_no_lf. intros I.
    assert (exists y, lit "END:" ++ k = x ++ y) as [y Y].
    { rewrite app_assoc in E. symmetry in E. apply TruncProofs.app_cases in E as [(q & -> & E)|(q & Q & _)]; [|now exists q].
      apply (f_equal (@length N)) in E. rewrite app_length in E. cbn in E. lia. }
    assert (J : In LF (lit "END:" ++ k)) by (rewrite Y; apply in_app_iff; now left). apply in_app_iff in J as [J|J]; [vm_compute in J; intuition discriminate|].
    now apply TruncProofs.name_no_lf in J.
  Qed.
  Theorem tree_cut_exact : forall k ps ts cs ss s0 z, tree_fine (Node k ps cs) -> tree_all breakless (Node k ps cs) ->
    Forall2 (fun p t => prop_write p = Ret t) ps ts -> Forall2 text_of cs ss ->
    lit "BEGIN:" ++ k ++ [CR; LF] ++ concat ts ++ concat ss ++ lit "END:" ++ k ++ [CR; LF] = s0 ++ z -> 2 < length z ->
    (cal_within (lit "BEGIN:" ++ k ++ [CR; LF] ++ concat ts) ss s0 -> text_fails (unfold s0))
    /\ (text_other (unfold s0) \/ cal_within (lit "BEGIN:" ++ k ++ [CR; LF] ++ concat ts) ss s0).
  Proof.
    intros k ps ts cs ss s0 z G A F1 F2 E L. pose proof (wtree_of_ok _ G) as O. pose proof (tree_single _ G A) as Sg. cbn [wtree_of] in O, Sg.
    inversion O as [? ? _ Hits]; subst. inversion Sg as [? ? Gits]; subst. inversion G as [? ? ? K P C]; subst. inversion A as [? ? ? AP AC]; subst. split.
    - intros [(l & s & r & v & z' & -> & -> & -> & L5 & L2)|(w & ->)].
      + destruct (forall2_split _ _ _ _ _ F2) as (cl & c & cr & -> & Fl & T & Fr). apply Forall_app in C as [Cl Cr]. inversion Cr as [|? ? Gc _]; subst.
        apply tree_write_spec in T as W. destruct (tree_tail _ _ Gc W) as (w & d & Ew & Nd). destruct (unfold_cut _ _ _ _ Ew Nd L2) as (u & e & y & E0 & E1 & Ly & Se).
        pose proof (tree_text_unfold _ _ Gc W) as Tu. rewrite <- strict_render, E1 in Tu.
        destruct (text_begins _ _ T) as (m & Em). destruct (begin_head _ _ _ Em L5) as (v' & ->).
        rewrite unfold_begin in E0.
        assert (L5' : 5 <= length u).
        { symmetry in E0. apply TruncProofs.app_cases in E0 as [(x & -> & _)|(x & Ex & -> & X)]; [rewrite app_length; cbn; lia|exfalso].
          destruct x as [|x1 x]; [easy|]. assert (I : In x1 (lit "BEGIN")) by (rewrite Ex; apply in_app_iff; right; now left).
          destruct (short_chars _ x1 Se (or_introl eq_refl)) as [->| ->]; vm_compute in I; intuition discriminate. }
        assert (Q : (lit "BEGIN:" ++ k ++ [CR; LF] ++ concat ts) ++ concat l ++ lit "BEGIN" ++ v' = lit "BEGIN:" ++ k ++ [CR; LF] ++ concat ts ++ concat l ++ lit "BEGIN" ++ v') by now rewrite <- !app_assoc.
        rewrite Q, (prefix_unfold k ps ts cl l); try easy; [|cbn; now apply blank_not]. rewrite unfold_begin, E0.
        eapply within_fails; try eassumption. left. exists (wtree_of c), (map (fun c => inr (wtree_of c)) cr), y. split; [|auto].
        rewrite map_app, <- app_assoc. easy.
      + rewrite <- !app_assoc in E. do 5 apply app_inv_head in E. rewrite (app_assoc (lit "END")) in E.
        assert (Q : (lit "BEGIN:" ++ k ++ [CR; LF] ++ concat ts) ++ concat ss ++ lit "END" ++ w = lit "BEGIN:" ++ k ++ [CR; LF] ++ concat ts ++ concat ss ++ lit "END" ++ w) by now rewrite <- !app_assoc.
        rewrite Q, (prefix_unfold k ps ts cs ss); try easy; [|cbn; now apply blank_not]. rewrite (end_prefix_unfold k _ z K E L), <- (app_nil_r (lit "END" ++ w)).
        eapply within_fails; try eassumption; [now left|]. right. split; [easy|]. split; [easy|]. now exists w, z.
    - assert (E' := E). rewrite (app_assoc k), (app_assoc (lit "BEGIN:")) in E'. symmetry in E'. apply TruncProofs.app_cases in E' as [(x & -> & E')|(y & E' & _ & Y)].
      + assert (In1 : forall c cl, (forall i, In i cl -> In i c) -> Forall tree_fine c -> Forall tree_fine cl).
        { intros c cl I H. rewrite Forall_forall in *. auto. }
        apply list_cut in E' as [(x1 & -> & E')|(l & t & r & u & z' & -> & -> & -> & Z)].
        * apply list_cut in E' as [(x2 & -> & E')|(l & t & r & u & z' & -> & -> & -> & Z)].
          -- (* the last line *)
             destruct (Nat.le_gt_cases 3 (length x2)) as [L3|L3].
             { right. right. change (lit "END:" ++ k ++ [CR; LF]) with (lit "END" ++ COLON :: k ++ [CR; LF]) in E'.
               apply TruncProofs.app_cases in E' as [(y & E' & _)|(y & -> & _)].
               - destruct y as [|c y]; [exists []; rewrite app_nil_r in E' |- *; rewrite E', <- !app_assoc; easy|].
                 apply (f_equal (@length N)) in E'. rewrite app_length in E'. cbn in E'. lia.
               - exists y. now rewrite <- !app_assoc. }
             left. assert (Ux := end_prefix_unfold k x2 z K E' L). change (lit "END:" ++ k ++ [CR; LF]) with (lit "END" ++ COLON :: k ++ [CR; LF]) in E'. symmetry in E'.
             apply TruncProofs.app_cases in E' as [(y & -> & _)|(y & E' & _ & Y)]; [rewrite app_length in L3; cbn in L3; lia|].
             destruct (end_prefix_stuck x2 y E' Y) as [N B].
             assert (Sx : solid x2) by (apply (solid_prefix _ y); rewrite <- E'; cbn; now apply blank_not).
             rewrite <- !app_assoc, (prefix_unfold k ps ts cs ss) by easy. rewrite Ux. apply begin_stuck; [easy|]. intros j Aj.
             apply no_breaks_self in Aj as ->; [|now apply concat_start]. now apply stuck_after.
          -- (* a component *)
             destruct (forall2_split _ _ _ _ _ F2) as (cl & c & cr & -> & Fl & T & Fr). apply Forall_app in C as [Cl Cr]. inversion Cr as [|? ? Gc _]; subst.
             destruct (Nat.le_gt_cases (length z') 2) as [L2|L2]; [|destruct (Nat.le_gt_cases 5 (length u)) as [L5|L5]].
             ++ left. assert (Su : solid u) by (apply (solid_prefix u z'); rewrite <- (app_nil_r (u ++ z')); now apply (text_solid c)).
                rewrite <- !app_assoc, (prefix_unfold k ps ts cl l) by easy. apply begin_stuck; [easy|].
                rewrite map_app, app_assoc in Hits. apply Forall_app in Hits as [Hl Hr]. inversion Hr as [|? ? Hc _]; subst. inversion Hc as [|? Oc]; subst.
                apply tree_write_spec in T as W. destruct (tree_tail _ _ Gc W) as (w & d & Ew & Nd).
                pose proof (tree_text_unfold _ _ Gc W) as Tu. rewrite <- strict_render, Ew, (unfold_tail w d Nd) in Tu.
                assert (Q : exists x, In x [[]; [CR]] /\ u = w ++ d :: x /\ x ++ z' = [CR; LF]).
                { change (w ++ [d; CR; LF]) with (w ++ [d] ++ [CR; LF]) in Ew. rewrite app_assoc in Ew. apply TruncProofs.app_cases in Ew as [(x & -> & Ex)|(x & Ex & Ez & X)].
                  - exists x. rewrite <- app_assoc. split; [|now split]. destruct x as [|x1 [|x2 x]]; [now left|injection Ex as <- _; right; now left|].
                    injection Ex as _ _ Ex. symmetry in Ex. apply app_eq_nil in Ex as [_ ->]. easy.
                  - exfalso. subst z'. rewrite app_length in L2. destruct x; [easy|]. cbn in L2. lia. }
                destruct Q as (x & Ix & -> & Ex). rewrite (unfold_ends w d x Ix Nd).
                destruct (whole_stuck (wtree_of c) (unfold w ++ d :: x) z' Oc) as [N B]; [|easy|].
                { rewrite <- Tu, <- app_assoc. cbn [app]. now rewrite Ex. }
                intros j Aj. apply no_breaks_self in Aj as ->; [now apply stuck_after|now apply concat_start].
             ++ right. left. exists l, (u ++ z'), r, u, z'. split; [easy|]. split; [now rewrite <- !app_assoc|]. auto.
             ++ left. destruct (text_begins _ _ T) as (m & Em). rewrite map_app, app_assoc in Hits. apply Forall_app in Hits as [Hl _].
                apply TruncProofs.app_cases in Em as [(y & -> & _)|(y & Ey & _ & Y)]; [rewrite app_length in L5; cbn in L5; lia|].
                destruct (begin_prefix_stuck u y Ey Y) as [N B].
                assert (Sx : solid u) by (apply (solid_prefix _ y); rewrite <- Ey; cbn; now apply blank_not).
                rewrite <- !app_assoc, (prefix_unfold k ps ts cl l) by easy.
                assert (unfold u = u) as ->.
                { apply unfold_mark_free, mark_free_no_lf. intros I. assert (J : In LF (lit "BEGIN")) by (rewrite Ey; apply in_app_iff; now left). vm_compute in J. intuition discriminate. }
                apply begin_stuck; [easy|]. intros j Aj. apply no_breaks_self in Aj as ->; [now apply stuck_after|now apply concat_start].
        * (* a property *)
          left. destruct (forall2_split _ _ _ _ _ F1) as (pl & p & pr & -> & Fl & W & Fr). apply Forall_app in P as [Pl Pr]. inversion Pr as [|? ? Gp _]; subst.
          assert (Su : solid u) by (apply (solid_prefix u z'); rewrite <- (app_nil_r (u ++ z')); now apply (prop_solid p)).
          assert (Q : unfold ((lit "BEGIN:" ++ k ++ [CR; LF]) ++ concat l ++ u)
            = lit "BEGIN:" ++ k ++ [CR; LF] ++ concat (map strict_item (map (fun p => inl (line_of p)) pl)) ++ unfold u).
          { pose proof (prefix_unfold k pl l [] [] u K Pl Fl (Forall_nil _) (Forall2_nil _) Su) as Q. cbn [concat map] in Q. rewrite app_nil_r in Q.
            rewrite <- !app_assoc. exact Q. }
          rewrite Q. clear Q. apply begin_stuck; [easy|].
          rewrite !map_app in Hits, Gits. cbn [map] in Hits, Gits. rewrite <- !app_assoc in Hits, Gits. apply Forall_app in Hits as [Hl Hr]. apply Forall_app in Gits as [_ Gr].
          inversion Hr as [|? ? Hp _]; subst. inversion Gr as [|? ? Gl _]; subst. inversion Hp as [? Op|]; subst. inversion Gl as [? Lp|]; subst.
          pose proof (unfold_prop p _ [] Gp W I) as Up. rewrite app_nil_r in Up. change (unfold []) with (@nil char) in Up. rewrite app_nil_r in Up.
          assert (Ew : exists w, u ++ z' = w ++ [LF]).
          { unfold prop_write, write_folded in W. destruct (fold_line _) as [f| |]; cbn [obind] in W; try easy. injection W as W. exists (f ++ [CR]). rewrite <- W, <- app_assoc. easy. }
          destruct Ew as [w Ew]. destruct (unfold_cut1 u z' w Ew Z) as (u1 & e & z1 & E0 & E1 & Z1 & Se). rewrite E1 in Up. rewrite E0.
          apply stuck_after_breaks; [easy|]. intros j A1. now apply (cut_line_stuck (line_of p) u1 z1 e j).
      + left. assert (unfold s0 = s0) as ->.
        { apply unfold_mark_free. intros a b Em Fm. apply fold_mark_mark in Fm as (m & r & (d & B & M) & ->).
          assert (N : ~ In LF (lit "BEGIN:" ++ k)).
          { intros I. apply in_app_iff in I as [I|I]; [vm_compute in I; intuition discriminate|now apply TruncProofs.name_no_lf in I]. }
          rewrite app_assoc in E'. pose proof (last_cut s0 y _ [] N (eq_sym E') Y (or_introl eq_refl)) as Ll. rewrite app_nil_r in Ll.
          destruct M as [->| ->]; cbn [app] in Em.
          - change (CR :: LF :: d :: r) with ([CR] ++ LF :: d :: r) in Em. rewrite app_assoc in Em. now apply Ll in Em.
          - now apply Ll in Em. }
        now apply (first_stuck k s0 y).
  Qed.

  Lemma comps_written : forall e l n ss, clock_ok e -> Forall2 text_of (fst (stamp_trees e (kinds l) n)) ss ->
    Forall2 (fun x t => exists n n', cc_write e x n = Ret (t, n')) l ss.
  Proof.
    intros e l n ss C. revert n ss. induction l as [|x l IH]; intros n ss F; cbn [kinds map stamp_trees fst] in F; inversion F as [|? s ? ss' T F']; subst; [constructor|].
    constructor; [|now apply (IH _ _ F')]. apply tree_write_spec in T. exists n. eexists. unfold cc_write. rewrite inner_write_tree by easy.
    cbn [fst snd] in T. rewrite T. reflexivity.
  Qed.
  Theorem cal_cut_exact : forall e c s, clock_ok e -> cal_fine c -> cal_all breakless c -> cal_write e c = Ret s ->
    exists ts ss, Forall2 (fun p t => prop_write p = Ret t) (c_props c) ts
      /\ Forall2 (fun x t => exists n n', cc_write e x n = Ret (t, n')) (c_comps c) ss
      /\ let head := lit "BEGIN:VCALENDAR" ++ [CR; LF] ++ concat ts in
         s = head ++ concat ss ++ lit "END:VCALENDAR" ++ [CR; LF]
         /\ forall s0 z, s = s0 ++ z -> 2 < length z ->
            (calendar_from_str s0 = Ok cal_empty <-> ~ cal_within head ss s0)
            /\ ((exists er, calendar_from_str s0 = Err er) <-> cal_within head ss s0).
  Proof.
    intros e c s C [P F] A W. rewrite cal_write_tree in W by easy.
    assert (G : tree_fine (cal_tree e c)).
    { apply fit_fine. constructor; [apply name_ok_spec; reflexivity|easy|]. clear - F. generalize 0.
      induction F as [|x l (K & M & O) _ IH]; intros n; cbn [kinds map stamp_trees fst]; constructor; [|apply IH].
      apply stamp_tree_fit; [now apply made_well|easy|easy]. }
    assert (B : tree_all breakless (cal_tree e c)).
    { apply cal_tree_all; [|easy|apply stamp_breakless|apply uid_breakless]. eapply Forall_impl; [|exact F]. now intros x (_ & M & _). }
    apply tree_write_spec in W. unfold cal_tree in *. inversion W as [k ps ts cs ss F1 F2]; subst. exists ts, ss. split; [easy|]. split; [now apply (comps_written e _ 0)|].
    assert (H : forall x, lit "BEGIN:" ++ lit "VCALENDAR" ++ [CR; LF] ++ x = lit "BEGIN:VCALENDAR" ++ [CR; LF] ++ x) by reflexivity.
    cbn zeta. split; [rewrite <- !app_assoc; reflexivity|]. intros s0 z E L.
    destruct (tree_cut_exact _ _ _ _ _ s0 z G B F1 F2 E L) as [T1 T2]. rewrite H in T1, T2. unfold calendar_from_str.
    destruct (text_one (unfold s0)) as (_ & _ & _ & X). destruct (read_calendar_exact (unfold s0)) as [R1 R2].
    set (D := cal_within _ _ s0) in *.
    assert (Er : (exists er, rmap conv_cal (read_calendar (unfold s0)) = Err er) <-> exists er, read_calendar (unfold s0) = Err er).
    { destruct (read_calendar (unfold s0)); cbn [rmap]; split; intros [y Y]; try easy; eauto. }
    assert (T : text_fails (unfold s0) <-> D).
    { split; [|easy]. intros T. destruct T2 as [S|S]; [|easy]. exfalso. apply X. split; [easy|now left]. }
    split; [|].
    - split.
      + intros R d. apply T, R2 in d as [er d]. rewrite d in R. discriminate R.
      + intros N. assert (Q : read_calendar (unfold s0) = Ok (mk_pcal [] [])) by (apply R1; right; right; split; [now destruct T2|easy]). now rewrite Q.
    - rewrite <- T, <- R2. exact Er.
  Qed.
End Edge.
