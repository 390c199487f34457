(** C77: what is written, in the grammar of RFC 5545. *)
From Coq Require Import ZifyBool ZifyNat ZifyN.
From Verif Require Import Str StrFacts Spec Fold Text ValueTypes Property Chrono DateTime Component Calendar
  SpecBuild SpecDate SpecTree SpecDoc SpecRound SpecText SpecRfc TreeProofs WrittenProofs RfcProofs Properties_Build Properties_Round Properties_Items.

(** C77. The grammar reads a line, a TEXT value and a document in one way only. *)
Theorem C77_unambiguous :
  (forall a b l, rfc_line a l -> rfc_line b l -> a = b)
  /\ (forall a b w, rfc_text a w -> rfc_text b w -> a = b)
  /\ (forall a b s, rfc_document a s -> rfc_document b s -> a = b).
Proof. split; [exact line_reading|]. split; [exact text_reading|exact document_reading]. Qed.
Print Assumptions C77_unambiguous.
(** A TEXT value is written so that the grammar reads it as the value, unless it has control characters other than
    tabulators and line feeds. *)
Theorem C77_text : forall v, rfc_text v (escape_text v) <-> Forall (fun c => ~ control c \/ c = 10%N) v.
Proof. intros v. apply text_says, text_written_escape. Qed.
Print Assumptions C77_text.
(** A property is written as a folded content line; the line is in the grammar and says what the property says if and only
    if its names are tokens and its texts have no control characters and, in parameters, no quotes. *)
Theorem C77_line : forall {U : Unicode} p s, prop_write p = Ret s ->
  exists l, rfc_fold l s /\ ((exists r, property_says p r /\ rfc_line r l) <-> within p)
    /\ forall r, property_says p r -> within p -> rfc_line r l.
Proof.
  intros U p s W. apply prop_written in W as (l & L & F). exists l. split; [now apply folded_fold|]. split; [split|].
  - intros (r & S & R). eapply says_within; eassumption.
  - intros T. destruct (says_exists p) as [r R]. exists r. split; [exact R|]. eapply line_in_grammar; eassumption.
  - intros r S T. eapply line_in_grammar; eassumption.
Qed.
Print Assumptions C77_line.
(** A calendar is written as a document of the grammar that says what the calendar says (with the generated DTSTAMP and
    UID properties), and nothing else, if and only if all its properties are within these limits. *)
Theorem C77_calendar : forall {U : Unicode} e c s,
  Forall (fun x => made (cc_inner x)) (c_comps c) -> clock_ok e -> cal_write e c = Ret s ->
  exists ts, Forall2 (fun x t => arranged e (cc_kind x) (cc_inner x) t) (c_comps c) ts
    /\ ((exists r, tree_says (Node (lit "VCALENDAR") (c_props c) ts) r /\ rfc_document r s) <-> cal_within c)
    /\ forall r d, tree_says (Node (lit "VCALENDAR") (c_props c) ts) r -> cal_within c -> (rfc_document d s <-> d = r).
Proof.
  intros U e c s M C W. destruct (C66_calendar e c s M C W) as (ts & A & T). exists ts. split; [exact A|].
  assert (V : token (lit "VCALENDAR")) by (split; [discriminate|repeat constructor; vm_compute; intuition discriminate]).
  assert (I : tree_within (Node (lit "VCALENDAR") (c_props c) ts) <-> cal_within c).
  { assert (J : Forall tree_within ts <-> Forall (fun x => inner_within (cc_kind x) (cc_inner x)) (c_comps c)).
    { clear - A M. induction A as [|x t xs ts H _ IH]; [split; constructor|]. inversion M as [|? ? M1 M2]; subst.
      rewrite !Forall_cons_iff, (IH M2), (arranged_within e t _ _ (made_well _ M1) H). reflexivity. }
    split.
    - intros H. inversion H; subst. split; [assumption|]. now apply J.
    - intros [H1 H2]. constructor; [exact V|exact H1|]. now apply J. }
  split; [split|].
  - intros (r & S & R). apply I. eapply document_within; eassumption.
  - intros H. destruct (tree_says_exists (Node (lit "VCALENDAR") (c_props c) ts)) as [r R]. exists r. split; [exact R|]. apply I in H. eapply tree_in_grammar; eassumption.
  - intros r d R H. apply I in H. pose proof (tree_in_grammar _ _ _ T R H) as D. split; [|now intros ->]. intros E. eapply document_reading; eassumption.
Qed.
Print Assumptions C77_calendar.

(** A calendar within the limits, and three properties that are not. *)
Definition controlb (c : char) : bool := ((c <=? 8) || ((10 <=? c) && (c <=? 31)) || (c =? 127))%N.
Definition tokenb (s : str) : bool :=
  match s with [] => false | _ => true end
  && forallb (fun c => ((65 <=? c) && (c <=? 90)) || ((97 <=? c) && (c <=? 122)) || ((48 <=? c) && (c <=? 57)) || (c =? 45))%N s.
Lemma tokenb_spec : forall s, tokenb s = true -> token s.
Proof.
  intros s H. unfold tokenb in H. apply andb_prop in H as [H1 H2]. split; [now destruct s|]. rewrite forallb_forall in H2. rewrite Forall_forall.
  intros c I. apply H2 in I. unfold token_char. lia.
Qed.
Definition withinb {U : Unicode} (p : property) : bool :=
  tokenb (p_key p) && negb (str_eqb (map ascii_upper (p_key p)) (lit "BEGIN")) && negb (str_eqb (map ascii_upper (p_key p)) (lit "END"))
  && forallb (fun q => tokenb (fst q) && forallb (fun c => negb (controlb c) && negb (c =? 34)%N) (snd q)) (p_params p)
  && forallb (fun c => negb (controlb c)) (p_val p).
Lemma withinb_spec : forall {U : Unicode} p, withinb p = true -> property_within p.
Proof.
  intros U p H. unfold withinb in H. do 4 (apply andb_prop in H as [H ?]). rewrite negb_true_iff in *. pose proof (tokenb_spec _ H) as T.
  assert (V : Forall value_char (p_val p)).
  { rewrite forallb_forall in H0. rewrite Forall_forall. intros c I. apply H0 in I. unfold value_char, control. unfold controlb in I. lia. }
  split.
  - split; [exact T|]. split; [|split; [intros _|now intros _]].
    + rewrite forallb_forall in H1. rewrite Forall_forall. intros q I. apply H1, andb_prop in I as [I J]. split; [now apply tokenb_spec|].
      rewrite forallb_forall in J. rewrite Forall_forall. intros c K. apply J in K. unfold quoted_char, control. unfold controlb in K. lia.
    + eapply Forall_impl; [|exact V]. now left.
  - split; [exact T|]. split; [change [66; 69; 71; 73; 78]%N with (lit "BEGIN")|change [69; 78; 68]%N with (lit "END")]; now apply str_eqb_neq.
Qed.
Section Example.
  Local Existing Instance some_unicode.
  Definition plain_event : inner := run_calls [KSummary (lit "a, b; c"); KUid (lit "u"); KMulti (mk_property (lit "ATTENDEE") (lit "mailto:x") [(lit "DIR", lit "cid:1"); (lit "MEMBER", lit "a,b")])] inner_new.
  Definition plain_cal : calendar := mk_calendar (c_props (cal_name cal_new (lit "a, b"))) [CEvent plain_event].
  Example C77_example : cal_within plain_cal /\ Forall (fun x => made (cc_inner x)) (c_comps plain_cal) /\ clock_ok some_env
    /\ (exists s, cal_write some_env plain_cal = Ret s /\ length s > 150)
    /\ (exists p, prop_write p = Ret (lit "DESCRIPTION:a" ++ [7%N; 13%N; 10%N]) /\ ~ within p)
    /\ (exists p, prop_write p = Ret (lit "X-A;B=""c"":d" ++ [13%N; 10%N]) /\ ~ within p)
    /\ (exists p, prop_write p = Ret (lit "X A:d" ++ [13%N; 10%N]) /\ ~ within p).
  Proof.
    split; [|split; [|split; [apply some_env_ok|split; [|split; [|split]]]]].
    - split; [now repeat (constructor; [apply withinb_spec; vm_compute; reflexivity|])|]. constructor; [|constructor]. constructor; [now apply tokenb_spec| | |constructor].
      + intros key p G. apply withinb_spec. apply StrFacts.map_get_in in G. vm_compute in G. repeat (destruct G as [G|G]; [injection G as _ <-; vm_compute; reflexivity|]). easy.
      + intros key g G. apply StrFacts.map_get_in in G. vm_compute in G. destruct G as [G|G]; [injection G as _ <-|easy]. constructor; [apply withinb_spec; vm_compute; reflexivity|constructor].
    - constructor; [|constructor]. cbn [cc_inner]. repeat (apply made_call; [|constructor]). apply made_new.
    - eexists. split; [vm_compute; reflexivity|]. cbn. lia.
    - exists (mk_property (lit "DESCRIPTION") [97; 7]%N []). split; [vm_compute; reflexivity|]. intros (_ & _ & H & _). specialize (H eq_refl).
      inversion H as [|? ? _ H']; subst. inversion H' as [|? ? [K|K] _]; subst; [|discriminate]. apply K. unfold control. lia.
    - exists (mk_property (lit "X-A") (lit "d") [(lit "B", 34%N :: lit "c" ++ [34%N])]). split; [vm_compute; reflexivity|]. intros (_ & H & _).
      inversion H as [|? ? [_ K] _]; subst. inversion K as [|? ? [_ L] _]; subst. now apply L.
    - exists (mk_property (lit "X A") (lit "d") []). split; [vm_compute; reflexivity|]. intros ((_ & H) & _). inversion H as [|? ? _ H']; subst. inversion H' as [|? ? K _]; subst.
      vm_compute in K. intuition.
  Qed.
End Example.
