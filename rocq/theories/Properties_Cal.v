(** C30-C33, C47-C49: calendars, durations, alarms. *)
From Verif Require Import Str Spec ValueTypes Property Chrono DateTime Component Alarm Calendar Nom Parser
  SpecBuild SpecDate SpecTree SpecCal StrFacts BuildProofs DateProofs SetterProofs TreeProofs CalProofs
  Properties_Build.

Local Existing Instance some_unicode.

(** ** C30 *)
Theorem C30_container :
  (forall l c, c_comps (run_ops l c) = c_comps c ++ flat_map op_comps l)
  /\ (forall c d, c_comps (fst (cal_append c d)) = c_comps c ++ c_comps d
                  /\ c_comps (snd (cal_append c d)) = [] /\ c_props (snd (cal_append c d)) = c_props d)
  /\ (forall l, c_comps (cal_from_iter l) = l) /\ (forall x, c_comps (cal_from_one x) = [x])
  /\ c_comps cal_new = [] /\ c_comps cal_empty = [].
Proof. split; [exact run_ops_comps|]. now repeat split. Qed.
Print Assumptions C30_container.

Example C30_example :
  let ev n := CEvent (summary inner_new (lit n)) in
  let td n := CTodo (summary inner_new (lit n)) in
  c_comps (run_ops [OPush (ev "a"); OName (lit "n"); OExtend [td "b"; ev "c"]; OAppend (cal_from_iter [ev "d"; ev "a"])]
                   (cal_from_one (td "z")))%string
  = [td "z"; ev "a"; td "b"; ev "c"; ev "d"; ev "a"]%string.
Proof. reflexivity. Qed.

(** ** C31 *)
(** Refuted: a later call of the setter does not override the earlier one. *)
Theorem C31_override_refuted : exists c s t, s <> t
  /\ cal_get_name (cal_name (cal_name c s) t) = Some s
  /\ cal_get_description (cal_description (cal_description c s) t) = Some s
  /\ cal_get_timezone (cal_timezone (cal_timezone c s) t) = Some s.
Proof. exists cal_new, (lit "a"), (lit "b"). now repeat split. Qed.
Print Assumptions C31_override_refuted.
(** Refuted: the time zone in the property that the setter writes is not the one the getter looks for. *)
Theorem C31_timezone_refuted : exists c s, first_value (lit "TIMEZONE-ID") (c_props c) s /\ cal_get_timezone c = None.
Proof.
  exists (cal_append_property cal_new (prop_new (lit "TIMEZONE-ID") (lit "Europe/Berlin"))), (lit "Europe/Berlin").
  split; [|reflexivity]. now repeat (apply (fv_here _ (prop_new _ _)) || (apply fv_later; [discriminate|])).
Qed.
Print Assumptions C31_timezone_refuted.
(** The rest of the property. *)
Theorem C31_lookup_partial :
  (forall l c k v, cal_property_value (run_ops l c) k = Some v
                   <-> first_value k (c_props c ++ flat_map op_props l) v)
  /\ (forall c p k v, cal_property_value c k = Some v ->
        cal_property_value (cal_append_property c p) k = Some v)
  /\ (forall c v,
       (cal_get_name c = Some v <-> first_value (lit "NAME") (c_props c) v
          \/ lacks "NAME" (c_props c) /\ first_value (lit "X-WR-CALNAME") (c_props c) v)
       /\ (cal_get_description c = Some v <-> first_value (lit "DESCRIPTION") (c_props c) v
          \/ lacks "DESCRIPTION" (c_props c) /\ first_value (lit "X-WR-CALDESC") (c_props c) v))
  /\ (forall c v, cal_get_timezone c = Some v <-> first_value (lit "TIMEZONE_ID") (c_props c) v
          \/ lacks "TIMEZONE_ID" (c_props c) /\ first_value (lit "X-WR-TIMEZONE") (c_props c) v)
  /\ (forall c s,
       (lacks "NAME" (c_props c) -> cal_get_name (cal_name c s) = Some s)
       /\ (lacks "DESCRIPTION" (c_props c) -> cal_get_description (cal_description c s) = Some s)
       /\ (lacks "TIMEZONE_ID" (c_props c) -> lacks "X-WR-TIMEZONE" (c_props c) ->
           cal_get_timezone (cal_timezone c s) = Some s)).
Proof.
  exact (conj cal_lookup (conj cal_append_keeps (conj cal_getters (conj cal_get_timezone_spec cal_setters)))).
Qed.
Print Assumptions C31_lookup_partial.
(** Exactly: what was set is read back if and only if the getter's first choice is missing or says the same already;
    for the time zone, which is written under another name, also the second choice. *)
Theorem C31_exact : forall c s,
  (cal_get_name (cal_name c s) = Some s <-> lacks "NAME" (c_props c) \/ first_value (lit "NAME") (c_props c) s)
  /\ (cal_get_description (cal_description c s) = Some s <-> lacks "DESCRIPTION" (c_props c) \/ first_value (lit "DESCRIPTION") (c_props c) s)
  /\ (cal_get_timezone (cal_timezone c s) = Some s <-> first_value (lit "TIMEZONE_ID") (c_props c) s
       \/ lacks "TIMEZONE_ID" (c_props c) /\ (lacks "X-WR-TIMEZONE" (c_props c) \/ first_value (lit "X-WR-TIMEZONE") (c_props c) s)).
Proof.
  assert (A : forall k k2 c s t, k <> k2 ->
    (first_value (lit k) ((c_props c ++ [prop_new (lit k) t]) ++ [prop_new (lit k2) t]) s <-> first_value (lit k) (c_props c) s \/ lacks k (c_props c) /\ s = t)).
  { intros k k2 c s t N. rewrite <- app_assoc, first_value_app. split; intros [H|[L H]]; [now left| |now left|].
    - right. split; [easy|]. inversion H as [|? ? ? X]; subst; [easy|]. now destruct X.
    - right. split; [easy|]. subst. apply (fv_here _ (prop_new (lit k) t)). reflexivity. }
  assert (NC : forall k (c : calendar) s, lacks k (c_props c) -> first_value (lit k) (c_props c) s -> False).
  { intros k c s L F. unfold lacks in L. induction F; inversion L; subst; auto. }
  assert (NX : forall k p l v, p_key p <> k -> first_value k (p :: l) v -> first_value k l v).
  { intros k p l v X F. inversion F; subst; easy. }
  intros c s. split; [|split].
  - rewrite (proj1 (cal_getters _ _)). unfold cal_name, cal_append_property. cbn [c_props]. rewrite A by discriminate. split.
    + intros [[H|[H _]]|[H _]]; auto. left. unfold lacks in *. rewrite !Forall_app in H. tauto.
    + intros [H|H]; left; [now right|now left].
  - rewrite (proj2 (cal_getters _ _)). unfold cal_description, cal_append_property. cbn [c_props]. rewrite A by discriminate. split.
    + intros [[H|[H _]]|[H _]]; auto. left. unfold lacks in *. rewrite !Forall_app in H. tauto.
    + intros [H|H]; left; [now right|now left].
  - rewrite cal_get_timezone_spec. unfold cal_timezone, cal_append_property. cbn [c_props]. rewrite <- app_assoc.
    rewrite (first_value_app (lit "TIMEZONE_ID") (c_props c)), (first_value_app (lit "X-WR-TIMEZONE") (c_props c)).
    assert (B : forall v, ~ first_value (lit "TIMEZONE_ID") ([prop_new (lit "TIMEZONE-ID") s] ++ [prop_new (lit "X-WR-TIMEZONE") s]) v).
    { intros v F. apply NX in F; [|discriminate]. apply NX in F; [|discriminate]. inversion F. }
    assert (D : first_value (lit "X-WR-TIMEZONE") ([prop_new (lit "TIMEZONE-ID") s] ++ [prop_new (lit "X-WR-TIMEZONE") s]) s).
    { apply fv_later; [discriminate|]. now apply (fv_here _ (prop_new (lit "X-WR-TIMEZONE") s)). }
    assert (L2 : lacks "TIMEZONE_ID" (c_props c ++ [prop_new (lit "TIMEZONE-ID") s] ++ [prop_new (lit "X-WR-TIMEZONE") s]) <-> lacks "TIMEZONE_ID" (c_props c)).
    { unfold lacks. rewrite Forall_app. split; [tauto|]. intros H. split; [easy|]. repeat constructor; discriminate. }
    rewrite L2. specialize (B s). unfold lacks in *. tauto.
Qed.
Print Assumptions C31_exact.
Example C31_exact_example : cal_get_timezone (cal_timezone (cal_append_property cal_new (prop_new (lit "TIMEZONE_ID") (lit "a"))) (lit "b")) = Some (lit "a")
  /\ cal_get_name (cal_name (cal_append_property cal_new (prop_new (lit "X-WR-CALNAME") (lit "a"))) (lit "b")) = Some (lit "b")
  /\ ~ first_value (lit "TIMEZONE_ID") (c_props (cal_append_property cal_new (prop_new (lit "TIMEZONE_ID") (lit "a")))) (lit "b").
Proof.
  split; [reflexivity|split; [reflexivity|]]. rewrite <- first_value_spec. discriminate.
Qed.

Example C31_example :
  cal_property_value (run_ops [OName (lit "a"); OProp (prop_new (lit "VERSION") (lit "3"))] cal_new) (lit "VERSION")
    = Some (lit "2.0")
  /\ cal_get_name (cal_append_property cal_new (prop_new (lit "X-WR-CALNAME") (lit "x"))) = Some (lit "x")
  /\ cal_get_name (cal_name (cal_append_property cal_new (prop_new (lit "X-WR-CALNAME") (lit "x"))) (lit "y"))
     = Some (lit "y")
  /\ lacks "NAME" (c_props cal_new).
Proof. repeat split; try reflexivity. now repeat constructor. Qed.

(** ** C32 *)
Theorem C32_headers :
  (forall c, In c [cal_new] \/ (exists l, c = cal_from_iter l) \/ (exists x, c = cal_from_one x) ->
     c_props c = [text_prop "VERSION" (lit "2.0"); text_prop "PRODID" (lit "ICALENDAR-RS");
                  text_prop "CALSCALE" (lit "GREGORIAN")]
     /\ count_key "VERSION" (c_props c) = 1 /\ count_key "PRODID" (c_props c) = 1
     /\ count_key "CALSCALE" (c_props c) = 1)
  /\ c_props cal_empty = []
  /\ (forall l c, c_props (run_ops l c) = c_props c ++ flat_map op_props l).
Proof.
  split; [|split; [easy|exact run_ops_props]].
  intros c H. assert (c_props c = default_props) as ->; [|now repeat split].
  destruct H as [[<-|[]]|[[l ->]|[x ->]]]; reflexivity.
Qed.
Print Assumptions C32_headers.

Example C32_example : cal_write some_env cal_new
  = Ret (concat (map (fun l => lit l ++ crlf)
      ["BEGIN:VCALENDAR"; "VERSION:2.0"; "PRODID:ICALENDAR-RS"; "CALSCALE:GREGORIAN"; "END:VCALENDAR"]%string)).
Proof. now vm_compute. Qed.

(** ** C33 *)
(** Refuted: negative durations are not read back, parts of a millisecond are lost, and a second
    call has no effect. *)
Theorem C33_ttl_refuted : forall I : Iso8601,
  (exists d, cal_get_ttl (cal_ttl cal_new d) = None)
  /\ (exists d d', cal_get_ttl (cal_ttl cal_new d) = Some d' /\ d <> d')
  /\ (exists d d', cal_get_ttl (cal_ttl (cal_ttl cal_new d) d') = Some d /\ d <> d').
Proof.
  intros I. split; [|split].
  - exists (-1000000000)%Z. now vm_compute.
  - exists 1000001%Z, 1000000%Z. now vm_compute.
  - exists 1000000%Z, 2000000%Z. now vm_compute.
Qed.
Print Assumptions C33_ttl_refuted.
(** What holds on a calendar that has no REFRESH-INTERVAL: non-negative durations up to [u32::MAX]
    seconds are read back, to the millisecond. *)
Theorem C33_ttl_partial : forall (I : Iso8601) c d, lacks "REFRESH-INTERVAL" (c_props c) -> readable d ->
  cal_get_ttl (cal_ttl c d) = Some d.
Proof. exact @ttl_round. Qed.
Print Assumptions C33_ttl_partial.
Theorem C33_ttl_exact_partial : forall (I : Iso8601) c d, lacks "REFRESH-INTERVAL" (c_props c) ->
  (0 <= d < 4294967296 * 1000000000)%Z -> cal_get_ttl (cal_ttl c d) = Some (d - d mod 1000000)%Z.
Proof. exact @ttl_read. Qed.
Print Assumptions C33_ttl_exact_partial.
Theorem C33_ttl_negative_partial : forall (I : Iso8601) c d,
  lacks "REFRESH-INTERVAL" (c_props c) -> lacks "X-PUBLISHED-TTL" (c_props c) ->
  (d < 0)%Z -> cal_get_ttl (cal_ttl c d) = None.
Proof. exact @ttl_neg. Qed.
Print Assumptions C33_ttl_negative_partial.

(** Exactly: below 2^32 seconds (beyond, the text is one that is not modelled), what is read is what was set if and only if it is readable. *)
Theorem C33_exact : forall (I : Iso8601) c d, lacks "REFRESH-INTERVAL" (c_props c) -> (d < 4294967296 * 1000000000)%Z ->
  (cal_get_ttl (cal_ttl c d) = Some d <-> readable d).
Proof.
  intros I c d H L. split; [|now apply ttl_round]. intros G. destruct (Z.ltb_spec d 0) as [N|N].
  - unfold cal_get_ttl, dur_from_std in G. destruct (or_else _ _) as [n|]; [|easy]. destruct (n <=? _)%N; [|easy]. injection G as G. lia.
  - rewrite ttl_read in G by (auto; lia). injection G as G. unfold readable. lia.
Qed.
Print Assumptions C33_exact.
(** Where there are both properties, a further call changes nothing that is read, whatever their texts are. *)
Theorem C33_later : forall (I : Iso8601) c d, ~ lacks "REFRESH-INTERVAL" (c_props c) -> ~ lacks "X-PUBLISHED-TTL" (c_props c) ->
  cal_get_ttl (cal_ttl c d) = cal_get_ttl c.
Proof.
  assert (F : forall k ps r, ~ lacks k ps -> find (fun p => str_eqb (p_key p) (lit k)) (ps ++ r) = find (fun p => str_eqb (p_key p) (lit k)) ps).
  { intros k ps r H. rewrite find_app. destruct (find _ ps) as [p|] eqn:Q; [easy|]. exfalso. apply H. apply Forall_forall. intros p Ip E.
    apply (find_none _ _ Q) in Ip. cbv beta in Ip. apply str_eqb_neq in Ip. easy. }
  intros I c d H1 H2. unfold cal_get_ttl, cal_property_value, cal_ttl, cal_append_property. cbn [c_props]. rewrite <- app_assoc. now rewrite !F.
Qed.
Print Assumptions C33_later.
Example C33_exact_example : forall I : Iso8601, ~ readable 5400123456789%Z /\ ~ readable (-1)%Z /\ let c := cal_ttl cal_new 3600000000000%Z in
  ~ lacks "REFRESH-INTERVAL" (c_props c) /\ ~ lacks "X-PUBLISHED-TTL" (c_props c) /\ cal_get_ttl (cal_ttl c 7200000000000%Z) = Some 3600000000000%Z.
Proof.
  intros I. split; [intros (_ & H & _); discriminate H|]. split; [intros (H & _); now apply H|].
  split; [|split; [|reflexivity]]; intros H; do 3 apply Forall_inv_tail in H; [apply Forall_inv in H|apply Forall_inv_tail, Forall_inv in H]; now apply H.
Qed.

Example C33_example : readable 5400123000000%Z /\ lacks "REFRESH-INTERVAL" (c_props cal_new)
  /\ forall I : Iso8601, cal_get_ttl (cal_ttl cal_new 5400123000000%Z) = Some 5400123000000%Z.
Proof. repeat split; try easy; try reflexivity. now repeat constructor. Qed.

(** ** C47 *)
Theorem C47_alarm : forall a l, Forall alarm_call_ok l ->
  let i := run_alarm a l in
  map_get (lit "ACTION") (i_props i) = Some (text_prop "ACTION" (lit (start_action a)))
  /\ map_get (lit "TRIGGER") (i_props i) = Some (trigger_prop (start_trigger a))
  /\ map_get (lit "DURATION") (i_props i)
     = option_map (fun r => text_prop "DURATION" (dur_text (fst r))) (last_repeat l)
  /\ map_get (lit "REPEAT") (i_props i)
     = option_map (fun r => text_prop "REPEAT" (dec (snd r))) (last_repeat l).
Proof. exact alarm_props. Qed.
Print Assumptions C47_alarm.
(** A display alarm keeps a DESCRIPTION: the given one or one set later. *)
Theorem C47_description : forall desc t l, Forall alarm_call_ok l ->
  map_get (lit "DESCRIPTION") (i_props (run_alarm (SDisplay desc t) l))
  = match last_with (lit "DESCRIPTION") (flat_map sets (flat_map call_of l)) with
    | Some p => Some p
    | None => Some (text_prop "DESCRIPTION" desc)
    end.
Proof. exact alarm_description. Qed.
Print Assumptions C47_description.
(** In the serialized form. *)
Theorem C47_text : forall (U : Unicode) e a l n s n', Forall alarm_call_ok l ->
  Forall (fun o => made (snd o)) (flat_map alarm_subs l) -> clock_ok e ->
  inner_write e (lit "VALARM") (run_alarm a l) n = Ret (s, n') ->
  exists t, text_of t s /\ t_name t = lit "VALARM"
    /\ count_key "ACTION" (t_props t) = 1 /\ count_key "TRIGGER" (t_props t) = 1
    /\ count_key "DURATION" (t_props t) = count_key "REPEAT" (t_props t)
    /\ count_key "REPEAT" (t_props t) = match last_repeat l with Some _ => 1 | None => 0 end.
Proof. exact alarm_text. Qed.
Print Assumptions C47_text.

Definition some_alarm_calls : list alarm_call :=
  [ADurationRepeat 60000000000%Z 3%N; AOther (KUid (lit "u")); ADurationRepeat 90000000000%Z 4%N; AOther (KSummary (lit "s"))].
Lemma some_alarm_ok : Forall alarm_call_ok some_alarm_calls.
Proof.
  repeat (apply Forall_cons || apply Forall_nil); try exact I;
    intros p k Hp Hk; cbn in Hp; destruct Hp as [<-|[]]; cbn in Hk;
    repeat (destruct Hk as [<-|Hk]; [discriminate|]); destruct Hk.
Qed.
Example C47_example : Forall alarm_call_ok some_alarm_calls
  /\ inner_write some_env (lit "VALARM") (run_alarm (SDisplay (lit "wake") (before_end 60000000000%Z)) some_alarm_calls) 0
  = Ret (concat (map (fun l => lit l ++ crlf)
      ["BEGIN:VALARM"; "DTSTAMP:20240229T120000Z"; "ACTION:DISPLAY"; "DESCRIPTION:wake"; "DURATION:PT90S"; "REPEAT:4";
       "SUMMARY:s"; "TRIGGER;RELATED=END:-PT60S"; "UID:u"; "END:VALARM"]%string), 1).
Proof. split; [apply some_alarm_ok|]. now vm_compute. Qed.

(** ** C48 *)
(** Refuted: triggers before the start or end, and absolute triggers with a time zone. *)
Theorem C48_trigger_refuted : forall I : Iso8601,
  (exists d, (0 < d)%Z /\ trigger_from_property (trigger_to_property (before_start d)) = None
     /\ trigger_from_property (trigger_to_property (before_end d)) = None)
  /\ (exists d z, real_dt d /\ trigger_from_property (trigger_to_property (TDateTime (WithTimezone d z)))
                  = Some (TDateTime (Floating d))).
Proof.
  intros I. split.
  - exists 1000000000%Z. now repeat split.
  - exists (mk_dt (mk_date 2024 2 29) (mk_time 23 59 59 0)), (lit "Europe/Berlin"). split; [|now vm_compute].
    split; [now apply real_date_spec|]. unfold real_time. cbn. lia.
Qed.
Print Assumptions C48_trigger_refuted.
(** What is read back of every trigger with a duration up to [u32::MAX] seconds or a four-digit year. *)
Theorem C48_trigger_partial : forall (I : Iso8601) t,
  match t with
  | TDuration d _ => (d < 4294967296 * 1000000000)%Z
  | TDateTime c => real_dt (dt_of c) /\ four_digits (date_of (dt_of c))
  end ->
  trigger_from_property (trigger_to_property t)
  = match t with
    | TDuration d r => if (d <? 0)%Z then None else Some (TDuration (d - d mod 1000000)%Z r)
    | TDateTime (Floating d) => Some (TDateTime (Floating (trunc_dt d)))
    | TDateTime (Utc d) => Some (TDateTime (Utc (trunc_dt d)))
    | TDateTime (WithTimezone d _) => Some (TDateTime (Floating (trunc_dt d)))
    end.
Proof. exact @trigger_read. Qed.
Print Assumptions C48_trigger_partial.
(** So these are unchanged. *)
Theorem C48_unchanged_partial : forall (I : Iso8601),
  (forall d, readable d ->
     trigger_from_property (trigger_to_property (after_start d)) = Some (after_start d)
     /\ trigger_from_property (trigger_to_property (after_end d)) = Some (after_end d)
     /\ trigger_from_property (trigger_to_property (TDuration d None)) = Some (TDuration d None))
  /\ (forall d, real_dt d -> four_digits (date_of d) -> whole_seconds (time_of d) ->
     trigger_from_property (trigger_to_property (TDateTime (Utc d))) = Some (TDateTime (Utc d))
     /\ trigger_from_property (trigger_to_property (TDateTime (Floating d))) = Some (TDateTime (Floating d))).
Proof. exact @trigger_unchanged. Qed.
Print Assumptions C48_unchanged_partial.

Example C48_example : forall I : Iso8601,
  trigger_from_property (trigger_to_property (after_end 90000000000%Z)) = Some (after_end 90000000000%Z)
  /\ p_val (trigger_to_property (after_end 90000000000%Z)) = lit "PT90S".
Proof. now split. Qed.

(** ** C49 *)
Theorem C49_duration_text : forall d, denotes (dur_text d) d.
Proof. exact dur_text_denotes. Qed.
Print Assumptions C49_duration_text.
(** A text denotes at most one duration. *)
Theorem C49_unambiguous : forall s x y, denotes s x -> denotes s y -> x = y.
Proof. exact denotes_functional. Qed.
Print Assumptions C49_unambiguous.

Example C49_example : dur_text (-90000500000)%Z = lit "-PT90.0005S" /\ dur_text 0%Z = lit "P0D"
  /\ denotes (lit "P1DT2H") 93600000000000%Z.
Proof.
  split; [now vm_compute|]. split; [now vm_compute|].
  apply (de_pos _ 93600000000000%N).
  change (lit "P1DT2H") with (lit "P" ++ lit "1D" ++ lit "T" ++ lit "2H").
  change 93600000000000%N with ((1 * DAY + 0) + (2 * HOUR + 0))%N. apply da_time; [|discriminate|].
  - apply as_skip. apply (as_cons 68%N DAY [] (lit "1")); [|constructor]. apply am_whole. now apply (dc_one 1%N).
  - apply (as_cons 72%N HOUR _ (lit "2")); [|constructor]. apply am_whole. now apply (dc_one 2%N).
Qed.
