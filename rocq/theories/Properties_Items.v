(** C66, C67: the text that is written, and what single items are read as. *)
From Coq Require Import ZifyBool ZifyNat ZifyN.
From Verif Require Import Str StrFacts Spec Fold Text ValueTypes Property Chrono DateTime Component Calendar Nom Parser
  SpecBuild SpecDate SpecTree SpecDoc SpecRound SpecItems SpecText
  BuildProofs DocProofs ItemProofs WrittenProofs RoundChecks ParserProofs Properties_Build Properties_Round.

(** The characters that the specifications name. *)
Theorem C66_characters : [TAB; LF; CR; SP; DQ; PLUS; COMMA; DASH; COLON; SEMI; EQUALS; BSL] = [9; 10; 13; 32; 34; 43; 44; 45; 58; 59; 61; 92]%N
  /\ [SP; PLUS; COMMA; DASH; COLON; SEMI; EQUALS] = lit " +,-:;=" /\ crlf = [13; 10]%N.
Proof. now repeat split. Qed.
Print Assumptions C66_characters.
(** The classes of characters that the specifications name: Unicode's White_Space, scalar values, lengths in UTF-8, and
    the ASCII parts of the alphanumeric and lower-case characters and of the conversion to lower case. *)
Theorem C66_classes :
  (forall c, is_ws c = true <-> (9 <= c <= 13 \/ 8192 <= c <= 8202)%N
    \/ In c [32; 133; 160; 5760; 8232; 8233; 8239; 8287; 12288]%N)
  /\ (forall c, is_digit c = true <-> (48 <= c <= 57)%N)
  /\ (forall c, valid_char c = true <-> (c < 1114112)%N /\ ~ (55296 <= c <= 57343)%N)
  /\ (forall c, utf8_len c = if (c <? 128)%N then 1 else if (c <? 2048)%N then 2 else if (c <? 65536)%N then 3 else 4)
  /\ (forall {U : Unicode} c, (c < 128)%N ->
       (is_alnum c = true <-> (48 <= c <= 57 \/ 65 <= c <= 90 \/ 97 <= c <= 122)%N)
       /\ (is_lowercase c = true <-> (97 <= c <= 122)%N)
       /\ ((65 <= c <= 90)%N -> to_lowercase [c] = [(c + 32)%N]) /\ (~ (65 <= c <= 90)%N -> to_lowercase [c] = [c]))
  /\ (forall {U : Unicode} c, (128 <= c)%N ->
       is_alnum c = alnum_hi c /\ is_lowercase c = lower_hi c /\ to_lowercase [c] = tolower_hi c).
Proof.
  split; [|split; [|split; [|split; [|split]]]].
  - intros c. unfold is_ws, in_range. cbn [In]. lia.
  - intros c. unfold is_digit, in_range. lia.
  - intros c. unfold valid_char. lia.
  - intros c. unfold utf8_len. reflexivity.
  - intros U c L. unfold is_alnum, is_lowercase, is_digit, is_upper, is_lower_ascii, to_lowercase, lower_ascii, is_upper, in_range. cbn [flat_map].
    replace (c <? 128)%N with true by lia. split; [lia|]. split; [lia|]. split; intros R.
    + replace ((65 <=? c) && (c <=? 90))%N with true by lia. reflexivity.
    + replace ((65 <=? c) && (c <=? 90))%N with false by lia. reflexivity.
  - intros U c L. unfold is_alnum, is_lowercase, to_lowercase. cbn [flat_map]. replace (c <? 128)%N with false by lia. now rewrite app_nil_r.
Qed.
Print Assumptions C66_classes.
(** C66. The written text is determined: a property is its content line, folded. *)
Theorem C66_line : forall {U : Unicode} p s, prop_write p = Ret s -> exists l, line_written p l /\ folded l s.
Proof. exact @prop_written. Qed.
Print Assumptions C66_line.
(** There is exactly one content line, and a short one is always written. *)
Theorem C66_unique : forall {U : Unicode} p,
  (exists l, line_written p l) /\ (forall a b, line_written p a -> line_written p b -> a = b)
  /\ (forall l, line_written p l -> octets l <= 75 -> prop_write p = Ret (l ++ [CR; LF])).
Proof.
  intros U p. split; [eexists; apply line_written_line|]. split; [apply line_written_unique|apply short_written].
Qed.
Print Assumptions C66_unique.
(** Components and calendars: the lines of the properties in order, the sub-components, between BEGIN and END. *)
Theorem C66_component : forall {U : Unicode} e kind i n s n', made i -> clock_ok e ->
  inner_write e kind i n = Ret (s, n') -> exists t, arranged e kind i t /\ written t s.
Proof. exact @component_written. Qed.
Print Assumptions C66_component.
Theorem C66_calendar : forall {U : Unicode} e c s, Forall (fun x => made (cc_inner x)) (c_comps c) -> clock_ok e -> cal_write e c = Ret s ->
  exists ts, Forall2 (fun x t => arranged e (cc_kind x) (cc_inner x) t) (c_comps c) ts
    /\ written (Node (lit "VCALENDAR") (c_props c) ts) s.
Proof. exact @calendar_written. Qed.
Print Assumptions C66_calendar.
(** Dates and times are written with digits in fixed places. *)
Theorem C66_dates : forall x k, real_dpt x -> four_digits (dpt_date x) ->
  p_key (dpt_to_property x k) = k /\ dpt_digits x (p_val (dpt_to_property x k)) (p_params (dpt_to_property x k)).
Proof. exact dpt_written. Qed.
Print Assumptions C66_dates.
Theorem C66_timestamps : forall i d, real_dt d -> four_digits (date_of d) ->
  exists t, dt_digits d t /\ property_value (timestamp i d) (lit "DTSTAMP") = Some (t ++ lit "Z")
    /\ property_value (created i d) (lit "CREATED") = Some (t ++ lit "Z")
    /\ property_value (completed i d) (lit "COMPLETED") = Some (t ++ lit "Z").
Proof.
  intros i d R F. exists (format_naive_date_time d). split; [now apply dt_written|].
  unfold property_value, timestamp, created, completed, add_property, append_property. cbn [i_props prop_new p_key].
  now rewrite !map_get_bt_same.
Qed.
Print Assumptions C66_timestamps.
(** Numbers are written without leading zeros. *)
Theorem C66_numbers : forall i n,
  (exists s, plain_number (N.min n 10) s /\ property_value (priority i n) (lit "PRIORITY") = Some s)
  /\ (exists s, plain_number n s /\ property_value (sequence i n) (lit "SEQUENCE") = Some s)
  /\ (exists s, plain_number n s /\ property_value (percent_complete i n) (lit "PERCENT-COMPLETE") = Some s).
Proof.
  intros i n. unfold property_value, priority, sequence, percent_complete, add_property, append_property. cbn [i_props prop_new p_key].
  rewrite !map_get_bt_same. split; [|split]; eexists; (split; [apply plain_dec|reflexivity]).
Qed.
Print Assumptions C66_numbers.
(** Generated identifiers. *)
Theorem C66_identifiers : forall n, (n < 2 ^ 128)%N -> uuid_text n (fmt_uuid n).
Proof. exact uuid_written. Qed.
Print Assumptions C66_identifiers.

Section Examples.
Local Existing Instance some_unicode.
Example C66_example :
  (let p := mk_property (lit "SUMMARY") (lit "a;b" ++ [LF]) [(lit "X", lit "p:q"); (lit "Y", lit "r")] in
   exists l, line_written p l /\ l = lit "SUMMARY;X=" ++ [DQ] ++ lit "p:q" ++ [DQ] ++ lit ";Y=r:a\;b\N" /\ octets l <= 75)
  /\ Forall (fun x => made (cc_inner x)) (c_comps some_cal) /\ c_comps some_cal <> [] /\ clock_ok some_env
  /\ (exists s, cal_write some_env some_cal = Ret s)
  /\ (let d := mk_dt (mk_date 2016 12 31) (mk_time 23 59 59 1000000000) in
      real_dt d /\ four_digits (date_of d) /\ p_val (dpt_to_property (DT (Utc d)) (lit "DUE")) = lit "20161231T235960Z")
  /\ property_value (sequence inner_new 0) (lit "SEQUENCE") = Some (lit "0")
  /\ fmt_uuid (2 ^ 127 + 11) = lit "80000000-0000-0000-0000-00000000000b".
Proof.
  split; [eexists; split; [apply line_written_line|]; split; [reflexivity|vm_compute; lia]|].
  split; [apply some_cal_made|]. split; [easy|]. split; [apply some_env_ok|]. split; [eexists; vm_compute; reflexivity|].
  split; [|now split]. split; [split|split; [cbn; unfold four_digits; cbn; lia|reflexivity]].
  - apply DateProofs.real_date_spec. now split.
  - unfold real_time. cbn. lia.
Qed.
End Examples.

(** C67. Single parameters: every text is read as the specification says, or rejected. *)
Theorem C67_parameter : forall {U : Unicode} i q, read_parameter i = Ok q <-> exists s rest, i = s ++ rest /\ param_read q s rest.
Proof. exact @read_parameter_exact. Qed.
Print Assumptions C67_parameter.
(** Single properties: every text but those that start with END or BEGIN is a property line, or else a name without a value. *)
Theorem C67_property : forall {U : Unicode} i p, read_property i = Ok p <->
  ~ reserved i /\ (line_read i p \/ (forall q, ~ line_read i q) /\ exists k, longest_name i k /\ p = mk_pprop k [] []).
Proof. exact @read_property_exact. Qed.
Print Assumptions C67_property.
(** A component is read up to its END line; what follows is ignored. *)
Theorem C67_component : forall {U : Unicode} y t s b rest, wtree_ok y t -> wtree_text y t s -> breaks b -> no_break_next rest ->
  (y = Lf -> ~ has_crlf (s ++ rest)) -> read_component (b ++ s ++ rest) = Ok (wtree_read t).
Proof.
  intros U y t s b rest O T B R C. unfold read_component. rewrite (component_doc verror _ y t s b rest); try easy. now apply no_break_spec.
Qed.
Print Assumptions C67_component.
(** So a single item is accepted with anything after it, and a line with a misplaced quote is a name alone. *)
Theorem C67_ignored : forall {U : Unicode},
  read_parameter (lit ";K=" ++ [DQ] ++ lit "v" ++ [DQ] ++ lit "junk") = Ok (mk_pparam (lit "K") (Some (lit "v")))
  /\ read_property (lit "SUMMARY;K=" ++ [DQ] ++ lit "v" ++ [DQ] ++ lit "junk:text") = Ok (mk_pprop (lit "SUMMARY") [] [])
  /\ read_property [] = Ok (mk_pprop [] [] []).
Proof. intros U. split; [|split]; vm_compute; reflexivity. Qed.
Print Assumptions C67_ignored.

Section Examples2.
Local Existing Instance some_unicode.
Example C67_example :
  param_read (mk_pparam (lit "K") (Some (lit "v"))) (lit "; K=v") (lit ":x")
  /\ line_read (lit " A;K=v:x\,y" ++ [CR; LF] ++ lit "z") (mk_pprop (lit "A") (lit "x\,y") [mk_pparam (lit "K") (Some (lit "v"))])
  /\ (forall q, ~ line_read (lit "A;K=v") q) /\ longest_name (lit "A;K=v") (lit "A").
Proof.
  assert (V : forall r, value_read (Some (lit "v")) (lit "v") (COLON :: r)).
  { intros r. constructor; [easy| | | |].
    - intros I. vm_compute in I. intuition discriminate.
    - intros I. vm_compute in I. intuition discriminate.
    - right. right. now exists r.
    - intros (x & y & _ & _ & H). discriminate H. }
  assert (P : forall r, param_read (mk_pparam (lit "K") (Some (lit "v"))) (lit ";K=v") (COLON :: r)).
  { intros r. apply (pr_value (lit "K") (Some (lit "v")) [] (lit "v")); [constructor|now apply name_ok_spec|apply V]. }
  split; [|split; [|split]].
  - apply (pr_value (lit "K") (Some (lit "v")) [SP] (lit "v")); [now constructor; [left|constructor]|now apply name_ok_spec|apply (V (lit "x"))].
  - exists [SP], (lit "A"), [mk_pparam (lit "K") (Some (lit "v"))], (lit ";K=v"), (lit "x\,y"), ([CR; LF] ++ lit "z").
    split; [reflexivity|]. split; [constructor; [now left|constructor]|]. split; [now apply name_ok_spec|].
    split; [|split; [|vm_compute; reflexivity]].
    + change (lit ";K=v") with (lit ";K=v" ++ []). constructor; [apply P|]. constructor. intros [r H]. discriminate H.
    + left. split; [now exists (lit "z")|]. intros (a & b & H). apply (f_equal (existsb (N.eqb CR))) in H.
      rewrite existsb_app in H. cbn in H. now rewrite orb_true_r in H.
  - intros q L. destruct (proj1 (C67_property (lit "A;K=v") (mk_pprop (lit "A") [] [])) ltac:(vm_compute; reflexivity)) as [N _].
    pose proof (read_property_line _ _ N L) as R. vm_compute in R. injection R as <-.
    destruct L as (w & k & qs & t & v & rest & H & _). apply (f_equal (existsb (N.eqb COLON))) in H.
    rewrite !existsb_app in H. cbn in H. now rewrite !orb_true_r in H.
  - exists (lit ";K=v"). split; [reflexivity|]. split; [now apply name_ok_spec|]. apply name_ends_stops. reflexivity.
Qed.
End Examples2.
