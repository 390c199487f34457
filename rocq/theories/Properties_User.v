(** Texts that were put in: C101. *)
From Verif Require Import Str StrFacts Spec Fold Text ValueTypes Property Chrono DateTime Component Alarm Calendar Nom Parser
  SpecBuild SpecDate SpecTree SpecDoc SpecConv SpecRound SpecExact SpecAlike SpecMore SpecUser BuildProofs MoreProofs TreeProofs ParserProofs DocProofs ConvProofs RoundProofs RoundChecks UserProofs Properties_Build Properties_Exact.

(** C101. Two calendars that differ only in TEXT values under the names [K] are read back from their texts as calendars that differ
    only in TEXT values under the names [K]: whatever text an attacker supplies, it stays in its place. *)
Theorem C101_confined : forall {U : Unicode} K e c c' s s', clock_ok e -> cal_fine c -> Forall (fun x => made (cc_inner x)) (c_comps c') ->
  cal_rel (differ_in K) c c' -> cal_write e c = Ret s -> cal_write e c' = Ret s' ->
  exists d d', calendar_from_str s = Ok d /\ calendar_from_str s' = Ok d' /\ cal_rel (differ_in K) d d'.
Proof. exact @cal_confined. Qed.
Print Assumptions C101_confined.
(** Place by place: where two calendars have properties related by [W], the ones read back are what these are read as (C64). *)
Theorem C101_places : forall {U : Unicode} (W : property -> property -> Prop), (forall p q, W p q -> text_only p q) ->
  forall e c c' s s', clock_ok e -> cal_fine c -> Forall (fun x => made (cc_inner x)) (c_comps c') ->
  cal_rel W c c' -> cal_write e c = Ret s -> cal_write e c' = Ret s' ->
  exists d d', calendar_from_str s = Ok d /\ calendar_from_str s' = Ok d' /\ cal_rel (read_rel W) d d'.
Proof. exact @cal_user. Qed.
Print Assumptions C101_places.
(** Values of any type and parameters: if both calendars are such that the parser takes their lines (C64: no CR LF and no line break before
    a blank in values that are not TEXT), what is read back under the same names is what the related properties are read as. *)
Theorem C101_values : forall {U : Unicode} (W : property -> property -> Prop), (forall p q, W p q -> p_key p = p_key q) ->
  forall e c c' s s', clock_ok e -> cal_fine c -> cal_fine c' -> cal_rel W c c' -> cal_write e c = Ret s -> cal_write e c' = Ret s' ->
  exists d d', calendar_from_str s = Ok d /\ calendar_from_str s' = Ok d' /\ cal_rel (read_rel W) d d'.
Proof. exact @cal_values. Qed.
Print Assumptions C101_values.
(** Builder calls that do the same but for the texts make such components. *)
Theorem C101_calls : forall {U : Unicode} K l m i j, Forall2 (call_rel (differ_in K)) l m -> inner_rel (differ_in K) i j ->
  inner_rel (differ_in K) (run_calls l i) (run_calls m j).
Proof. intros U K. apply calls_rel. intros p q H. apply H. Qed.
Print Assumptions C101_calls.
Lemma texts_are : forall {U : Unicode} k l v, In (k, Text) rfc_default_types -> map_get (lit "VALUE") l = None -> is_text (mk_property (lit k) v l).
Proof. intros U k l v I L. unfold is_text, prop_value_type. cbn [p_params p_key]. rewrite L. now apply by_name_upper. Qed.
(** The setters of texts are such calls, and so is any call and itself. *)
Theorem C101_setters : forall {U : Unicode} (K : str -> Prop) a b u,
  (K (lit "SUMMARY") -> call_rel (differ_in K) (KSummary a) (KSummary b))
  /\ (K (lit "DESCRIPTION") -> call_rel (differ_in K) (KDescription a) (KDescription b))
  /\ (K (lit "LOCATION") -> call_rel (differ_in K) (KLocation a) (KLocation b) /\ call_rel (differ_in K) (KVenue a u) (KVenue b u))
  /\ (K (lit "UID") -> call_rel (differ_in K) (KUid a) (KUid b))
  /\ (forall k, K (lit k) -> In (k, Text) rfc_default_types ->
        call_rel (differ_in K) (KAdd (lit k) a) (KAdd (lit k) b) /\ call_rel (differ_in K) (KAddMulti (lit k) a) (KAddMulti (lit k) b))
  /\ (forall i j, inner_rel (differ_in K) i j -> call_rel (differ_in K) (KAlarm i) (KAlarm j))
  /\ forall c, call_rel (differ_in K) c c.
Proof.
  intros U K a b u.
  assert (H : forall k l, K (lit k) -> In (k, Text) rfc_default_types -> map_get (lit "VALUE") l = None -> Forall2 (differ_in K) [mk_property (lit k) a l] [mk_property (lit k) b l]).
  { intros k l X Y Z. constructor; [|constructor]. apply differ_new; [exact X|]. now apply texts_are. }
  assert (I : forall k, In k ["SUMMARY"; "DESCRIPTION"; "LOCATION"; "UID"]%string -> In (k, Text) rfc_default_types).
  { intros k I. repeat (destruct I as [<-|I]; [now vm_compute; intuition|]). destruct I. }
  split; [|split; [|split; [|split; [|split; [|split]]]]].
  - intros X. split; [|split; constructor]. apply (H "SUMMARY"%string []); [exact X| |reflexivity]. apply I. now left.
  - intros X. split; [|split; constructor]. apply (H "DESCRIPTION"%string []); [exact X| |reflexivity]. apply I. right. now left.
  - intros X. split; (split; [|split; constructor]).
    + apply (H "LOCATION"%string []); [exact X| |reflexivity]. apply I. right. right. now left.
    + apply (H "LOCATION"%string [(lit "VVENUE", u)]); [exact X| |reflexivity]. apply I. right. right. now left.
  - intros X. split; [|split; constructor]. apply (H "UID"%string []); [exact X| |reflexivity]. apply I. right. right. right. now left.
  - intros k X Y. split.
    + split; [|split; constructor]. now apply (H k []).
    + split; [constructor|]. split; [|constructor]. now apply (H k []).
  - intros i j R. split; [constructor|]. split; [constructor|]. constructor; [|constructor]. now split.
  - intros c. apply call_rel_refl. apply differ_refl.
Qed.
Print Assumptions C101_setters.
(** Only TEXT is so: a URL and a parameter can bring a line of their own, here one that cancels the event. *)
Definition user_event (c : call) : calendar := mk_calendar [] [CEvent (run_calls [c; KEventStatus Confirmed] inner_new)].
Definition statuses (c : calendar) : list (option event_status) := map (fun x => event_get_status (cc_inner x)) (c_comps c).
Definition read_statuses {U : Unicode} (c : calendar) : option (list (option event_status)) :=
  match cal_write some_env c with
  | Ret s => match calendar_from_str s with Ok d => Some (statuses d) | _ => None end
  | _ => None
  end.
Definition language (v : str) : call := KAppend (mk_property (lit "SUMMARY") (lit "s") [(lit "LANGUAGE", v)]).
Theorem C101_others : forall f, In f [KUrl; language] -> exists v v', forall (U : Unicode),
  read_statuses (user_event (f v)) = Some [Some Confirmed] /\ read_statuses (user_event (f v')) = Some [Some Cancelled].
Proof.
  intros f [<-|[<-|[]]].
  - exists (lit "x"), (lit "x" ++ [CR; LF] ++ lit "STATUS:CANCELLED"). intros U. split; vm_compute; reflexivity.
  - exists (lit "x"), (lit "x" ++ 34%N :: lit ":y" ++ [CR; LF] ++ lit "STATUS:CANCELLED" ++ [CR; LF] ++ lit "X-A:" ++ [34%N]). intros U. split; vm_compute; reflexivity.
Qed.
Print Assumptions C101_others.

(** A summary that looks like the end of the event and another one: the status, the UID and the number of components stay. *)
Section Example101.
  Local Existing Instance some_unicode.
  Let calls (v : str) : list call := [KUid (lit "u"); KSummary v; KEventStatus Confirmed; KAddMulti (lit "CATEGORIES") v].
  Let cal (v : str) : calendar := mk_calendar [] [CEvent (run_calls (calls v) inner_new)].
  Let evil : str := [CR; LF] ++ lit "END:VEVENT" ++ [CR; LF] ++ lit "BEGIN:VEVENT" ++ [CR; LF] ++ lit "STATUS:CANCELLED" ++ [CR; LF] ++ lit "\n\".
  Let names (k : str) : Prop := k = lit "SUMMARY" \/ k = lit "CATEGORIES".
  Lemma cal_is_fine : forall v, cal_fine (cal v).
  Proof.
    intros v. assert (H : forall k w, In (k, Text) rfc_default_types -> prop_name_okb (lit k) = true -> line_fine (prop_new (lit k) w)).
    { intros k w I B. split; [split; [now apply prop_name_okb_spec|split; constructor]|]. intros X. destruct X. now apply texts_are. }
    split; [constructor|]. constructor; [|constructor]. split; [now apply name_ok_spec|]. split; cbn [cc_inner].
    - repeat (apply made_call; [|constructor]). apply made_new.
    - constructor.
      + intros k p G. apply map_get_in in G. destruct G as [G|[G|[G|[]]]]; injection G as <- <-;
          [apply (H "STATUS"%string)|apply (H "SUMMARY"%string)|apply (H "UID"%string)]; try reflexivity; vm_compute; intuition.
      + intros k l G. apply map_get_in in G. destruct G as [G|[]]; injection G as <- <-. constructor; [|constructor].
        apply (H "CATEGORIES"%string); try reflexivity; vm_compute; intuition.
      + constructor.
  Qed.
  Example C101_example : cal_fine (cal (lit "hello")) /\ Forall (fun x => made (cc_inner x)) (c_comps (cal evil))
    /\ cal_rel (differ_in names) (cal (lit "hello")) (cal evil)
    /\ (exists s, cal_write some_env (cal (lit "hello")) = Ret s) /\ (exists s, cal_write some_env (cal evil) = Ret s)
    /\ read_statuses (cal (lit "hello")) = Some [Some Confirmed] /\ read_statuses (cal evil) = Some [Some Confirmed].
  Proof.
    split; [apply cal_is_fine|]. split; [constructor; [|constructor]; destruct (cal_is_fine evil) as [_ F]; inversion F as [|? ? (_ & M & _)]; exact M|]. split.
    - split; [constructor|]. constructor; [|constructor]. apply C101_calls; [|apply inner_rel_refl, differ_refl].
      destruct (C101_setters names (lit "hello") evil []) as (A & _ & _ & _ & B & _ & C).
      constructor; [apply C|]. constructor; [apply A; now left|]. constructor; [apply C|]. constructor; [|constructor].
      apply (B "CATEGORIES"%string); [now right|vm_compute; intuition].
    - split; [eexists; vm_compute; reflexivity|]. split; [eexists; vm_compute; reflexivity|]. split; vm_compute; reflexivity.
  Qed.
End Example101.
