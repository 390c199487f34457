(** C69, C70: where lines are cut; the text of reserialized documents. *)
From Verif Require Import Str StrFacts Spec Fold Text ValueTypes Property Chrono DateTime Component Calendar Nom Parser
  SpecBuild SpecDate SpecTree SpecText SpecFold WrittenProofs CutProofs Properties_Build.

(** C69. A property is written exactly as its content line, cut at the places given by [cuts]; if there are none,
    writing it does not end, or panics. *)
Theorem C69_exact : forall {U : Unicode} p s, prop_write p = Ret s <-> exists l, line_written p l /\ cut_line l s.
Proof. exact @prop_cut. Qed.
Print Assumptions C69_exact.
(** An ASCII line: 75 characters, then 74 in each line, one less before white space, as long as more than 75 remain. *)
Theorem C69_ascii : forall {U : Unicode} p l, line_written p l -> Forall (fun c => non_ascii c = false) l ->
  exists ps last, cut_ascii 75 l ps last /\ prop_write p = Ret (join_fold ps last ++ [CR; LF]).
Proof. exact @prop_ascii. Qed.
Print Assumptions C69_ascii.
(** There is at most one way. *)
Theorem C69_unique : forall l,
  (forall ps last ps' last', cuts l [] 75 ps last -> cuts l [] 75 ps' last' -> ps = ps' /\ last = last')
  /\ (forall ps last ps' last', cut_ascii 75 l ps last -> cut_ascii 75 l ps' last' -> ps = ps' /\ last = last').
Proof. intros l. split; intros ps last ps' last' H; [now apply cuts_one|now apply cut_ascii_one]. Qed.
Print Assumptions C69_unique.

Section Examples.
Local Existing Instance some_unicode.
(** White space would begin the third line; a line with characters of two octets. *)
Example C69_example :
  let p := mk_property (lit "SUMMARY") (repeat 97%N 141 ++ [SP] ++ repeat 98%N 12) [] in
  let q := mk_property (lit "SUMMARY") (repeat 233%N 60) [] in
  (exists l, line_written p l /\ Forall (fun c => non_ascii c = false) l /\ length l = 162)
  /\ prop_write p = Ret (lit "SUMMARY:" ++ repeat 97%N 67 ++ [CR; LF; SP] ++ repeat 97%N 73 ++ [CR; LF; SP] ++ [97%N; SP] ++ repeat 98%N 12 ++ [CR; LF])
  /\ exists l, line_written q l /\ cut_line l (lit "SUMMARY:" ++ repeat 233%N 33 ++ [CR; LF; SP] ++ repeat 233%N 27 ++ [CR; LF]).
Proof.
  split; [|split; [vm_compute; reflexivity|apply prop_cut; vm_compute; reflexivity]].
  eexists. split; [apply line_written_line|]. split; [|reflexivity]. apply Forall_forall. intros c I. vm_compute in I.
  repeat (destruct I as [<-|I]; [reflexivity|]). easy.
Qed.
End Examples.

(** C70. A parsed calendar is written as it was read: names, parameters and values unchanged, lines cut as above, and
    DTSTAMP and UID lines only in components called calendar that have none. *)
Theorem C70_text : forall {U : Unicode} e c s, env_real e -> pcal_write e c = Ret s ->
  pwritten e (mk_pcomp (lit "VCALENDAR") (pcal_props c) (pcal_comps c)) s.
Proof. exact @pcal_written. Qed.
Print Assumptions C70_text.
Theorem C70_returns : forall {U : Unicode} e c, (exists s, pcal_write e c = Ret s) <->
  lines_cut (mk_pcomp (lit "VCALENDAR") (pcal_props c) (pcal_comps c)).
Proof. exact @pcal_returns. Qed.
Print Assumptions C70_returns.

Section Examples2.
Local Existing Instance some_unicode.
Definition real_env : env := mk_env (now_at some_env) (fun _ => 5%N).
Example C70_example :
  let c := mk_pcal [mk_pprop (lit "X") (lit "a\,b" ++ [DQ]) [mk_pparam (lit "K") None; mk_pparam (lit "L") (Some (lit "p:q"))]]
             [mk_pcomp (lit "Calendar") [mk_pprop (lit "UID") (lit "u") []] []] in
  env_real real_env /\ (exists s, pcal_write real_env c = Ret s)
  /\ pwritten real_env (mk_pcomp (lit "VCALENDAR") (pcal_props c) (pcal_comps c))
       (concat (map (fun l => l ++ [CR; LF]) [lit "BEGIN:VCALENDAR"; lit "X;K;L=p:q:a\,b" ++ [DQ]; lit "BEGIN:Calendar"; lit "DTSTAMP:20240229T120000Z"; lit "UID:u"; lit "END:Calendar"; lit "END:VCALENDAR"])).
Proof.
  assert (R : env_real real_env).
  { intros n. split; [apply some_env_ok|]. split; [cbn; unfold four_digits; cbn; lia|]. easy. }
  split; [easy|]. split; [eexists; vm_compute; reflexivity|]. apply (pcal_written real_env (mk_pcal _ _)); [easy|vm_compute; reflexivity].
Qed.
End Examples2.
