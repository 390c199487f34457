(** C73: parsed calendars as JSON. *)
From Verif Require Import Str StrFacts ValueTypes Property Component Calendar Nom Parser Serde SpecSerde SerdeProofs Properties_Build.
From Coq Require Import ZifyBool ZifyNat ZifyN.

(** C73. Refuted: components nested more than 62 deep are parsed and written as JSON, which is then refused. *)
Theorem C73_deep_refuted : forall {U : Unicode},
  (exists i c, read_calendar i = Ok c /\ cal_from_json (ser_cal c) = None)
  /\ (forall c x, In x (pcal_comps c) -> 62 < comp_depth x -> cal_from_json (ser_cal c) = None).
Proof.
  intros U. split.
  - exists (lit "BEGIN:VCALENDAR" ++ [LF] ++ concat (repeat (lit "BEGIN:X" ++ [LF]) 63) ++ concat (repeat (lit "END:X" ++ [LF]) 63) ++ lit "END:VCALENDAR").
    eexists. split; [vm_compute; reflexivity|]. vm_compute. reflexivity.
  - intros c x I D. apply cal_deep. pose proof (deep_levels c x I). unfold json_levels. lia.
Qed.
Print Assumptions C73_deep_refuted.
(** All others are read back from their JSON unchanged, exactly up to the number of levels; nothing else is ever read back. *)
Theorem C73_kept_partial : forall c,
  (Forall (fun x => comp_depth x <= 61) (pcal_comps c) -> cal_from_json (ser_cal c) = Some c)
  /\ (cal_from_json (ser_cal c) = Some c <-> json_depth (ser_cal c) <= 127)
  /\ (forall d, cal_from_json (ser_cal c) = Some d -> d = c).
Proof.
  intros c. split; [|split].
  - intros H. apply cal_levels in H. apply cal_round. unfold json_levels. lia.
  - apply cal_round.
  - apply ser_one.
Qed.
Print Assumptions C73_kept_partial.
(** So the text written from the JSON is the text written from the calendar, and different calendars have different JSON. *)
Theorem C73_text : forall {U : Unicode} c d, cal_from_json (ser_cal c) = Some d -> forall e, pcal_write e d = pcal_write e c.
Proof. intros U c d H e. apply ser_one in H. now subst d. Qed.
Print Assumptions C73_text.
Theorem C73_different : forall c d, ser_cal c = ser_cal d -> c = d.
Proof.
  intros c d H. pose proof (proj2 (cal_round (json_depth (ser_cal c)) c) (le_n _)) as E. rewrite H in E. now apply ser_one in E.
Qed.
Print Assumptions C73_different.
(** The JSON values that are read, and as what: objects with each field once, in any order, unknown fields ignored, a missing
    parameter value standing for none; or arrays of exactly the fields. *)
Theorem C73_read : forall v c, cal_from_json v = Some c <-> cal_json 127 v c.
Proof. intros v c. apply cal_spec. Qed.
Print Assumptions C73_read.

Example C73_example :
  let c := mk_pcal [mk_pprop (lit "A") (lit "x") [mk_pparam (lit "K") None; mk_pparam (lit "L") (Some [])]] [nested 3] in
  Forall (fun x => comp_depth x <= 61) (pcal_comps c)
  /\ cal_json 127 (JObj [(lit "components", JArr []); (lit "other", JNum (lit "1")); (lit "properties", JArr [JArr [JStr (lit "A"); JStr (lit "x");
       JArr [JObj [(lit "key", JStr (lit "K"))]; JObj [(lit "val", JStr []); (lit "key", JStr (lit "L"))]]]])]) (mk_pcal (pcal_props c) [])
  /\ (forall d, ~ cal_json 127 (JObj [(lit "components", JArr []); (lit "properties", JArr []); (lit "components", JArr [])]) d).
Proof.
  intros c. split; [repeat constructor|]. split; [apply cal_spec; reflexivity|]. intros d H. apply cal_spec in H. discriminate H.
Qed.
