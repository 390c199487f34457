(** C06-C10: TEXT values and value types. *)
From Verif Require Import Str Spec Text ValueTypes Property Chrono Component Nom Parser TextProofs ValueProofs.

(** ** C06: false as stated. *)
Theorem C06_text_round_trip_refuted : exists t, unescape_text (escape_text t) <> t.
Proof. exists (lit "C:\new"). discriminate. Qed.
Print Assumptions C06_text_round_trip_refuted.

(** Exactly which texts survive: those without a backslash directly before [:], [N] or [n]. *)
Theorem C06_text_round_trip_partial : forall t,
  unescape_text (escape_text t) = t
  <-> ~ exists a d b, t = a ++ BSL :: d :: b /\ In d [COLON; 78%N; 110%N].
Proof. exact unescape_escape. Qed.
Print Assumptions C06_text_round_trip_partial.

Example C06_example :
  let t := lit "a, b; c\d\\, " ++ [LF; BSL; LF] in
  unescape_text (escape_text t) = t /\ escape_text t <> t.
Proof. split; [reflexivity|discriminate]. Qed.

(** ** C07 *)
Theorem C07_escaped_safe : forall t, exists ps, escape_text t = wire ps /\ decoded ps = t
  /\ Forall rfc_piece ps
  /\ Forall (fun p => match p with Plain c => ~ In c [BSL; SEMI; COMMA; LF] | Escaped _ => True end) ps
  /\ ~ In LF (escape_text t).
Proof. exact escape_pieces. Qed.
Print Assumptions C07_escaped_safe.

Example C07_example :
  escape_text (lit "x" ++ LF :: lit "END:VEVENT,;\") = lit "x\NEND:VEVENT\,\;\\".
Proof. reflexivity. Qed.

(** ** C08: false as stated: an escaped backslash before [n] is read as a line feed. *)
Theorem C08_rfc_decoding_refuted : exists ps, Forall rfc_piece ps /\ unescape_text (wire ps) <> decoded ps.
Proof.
  exists [Plain 67%N; Plain COLON; Escaped BSL; Plain 110%N]. split; [|discriminate].
  repeat constructor; try discriminate.
Qed.
Print Assumptions C08_rfc_decoding_refuted.

(** Exactly which wire texts are decoded as the RFC says: those in which no escaped backslash stands
    directly before an unescaped [, ; : N n]. *)
Theorem C08_rfc_decoding_partial : forall ps, Forall rfc_piece ps ->
  (unescape_text (wire ps) = decoded ps
   <-> ~ exists a d b, ps = a ++ Escaped BSL :: Plain d :: b
                       /\ In d [COMMA; SEMI; COLON; 78%N; 110%N]).
Proof. exact unescape_wire. Qed.
Print Assumptions C08_rfc_decoding_partial.

Example C08_example :
  let ps := [Escaped COMMA; Escaped BSL; Escaped 78%N; Plain 110%N; Escaped BSL; Plain 120%N; Escaped SEMI] in
  Forall rfc_piece ps /\ unescape_text (wire ps) = decoded ps.
Proof.
  split; [|reflexivity].
  repeat apply Forall_cons; try apply Forall_nil; cbn; try discriminate; auto 6.
Qed.

(** ** C09 *)
Theorem C09_value_names :
  (forall t, vt_try_from_param (vt_to_param t) = Some t)
  /\ (forall t, exists n, In (n, t) registered /\ vt_to_param t = (lit "VALUE", lit n))
  /\ (forall s t, vt_try_from_param (lit "VALUE", s) = Some t
                  <-> exists n, In (n, t) registered /\ s = lit n)
  /\ (forall k v, k <> lit "VALUE" -> vt_try_from_param (k, v) = None).
Proof. exact value_names. Qed.
Print Assumptions C09_value_names.

Example C09_example : vt_try_from_param (lit "VALUE", lit "date") = None
  /\ vt_try_from_param (lit "VALUE", lit "DATE") = Some Date.
Proof. split; reflexivity. Qed.

(** ** C10 *)
Theorem C10_text_agree : forall (U : Unicode) name ps v,
  length (filter (fun q => str_eqb (pp_key q) (lit "VALUE")) ps) <= 1 ->
  let p := mk_pprop name v ps in
  (determin_value_type name ps = Some Text /\ value_text (conv_prop p) = escape_text v
   /\ decode_value name ps v = unescape_text v)
  \/ (determin_value_type name ps <> Some Text /\ value_text (conv_prop p) = v
      /\ decode_value name ps v = v).
Proof. exact text_agree. Qed.
Print Assumptions C10_text_agree.

Theorem C10_value_type_agree : forall (U : Unicode) p,
  length (filter (fun q => str_eqb (pp_key q) (lit "VALUE")) (pr_params p)) <= 1 ->
  prop_value_type (conv_prop p) = determin_value_type (pr_name p) (pr_params p).
Proof. exact value_type_agree. Qed.
Print Assumptions C10_value_type_agree.

Example C10_example : forall U : Unicode,
  let ps := [mk_pparam (lit "TZID") (Some (lit "x")); mk_pparam (lit "VALUE") (Some (lit "TEXT"))] in
  length (filter (fun q => str_eqb (pp_key q) (lit "VALUE")) ps) <= 1
  /\ determin_value_type (lit "DTSTART") ps = Some Text
  /\ determin_value_type (lit "DTSTART") [] = Some DateTime.
Proof. intros U. split; [vm_compute; lia|]. split; reflexivity. Qed.
