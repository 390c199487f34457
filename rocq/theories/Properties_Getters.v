(** What the typed getters answer, for any component and for one read from a text. *)
From Verif Require Import Str StrFacts Spec ValueTypes Property Chrono DateTime Component Calendar Nom Parser Access
  SpecBuild SpecDate SpecDoc SpecMore SpecConv SpecScan SpecGetters BuildProofs SetterProofs ConvProofs ScanProofs
  Properties_Build Properties_Scan Properties_Round.
From Coq Require Import ZifyBool ZifyNat ZifyN.

Definition stored (i : inner) (n : string) (p : property) : Prop := map_get (lit n) (i_props i) = Some p.

(** C75. The getters answer exactly what is stored under their name. *)
Theorem C75_stored : forall {U : Unicode} i,
  (forall f s, field_get f i = Some s <-> exists p, stored i (field_name f) p /\ p_val p = s)
  /\ (forall f d, time_get f i = Some d <-> exists p, stored i (time_name f) p /\ utc_text (p_val p) d)
  /\ (forall f x, date_get f i = Some x <-> exists p, stored i (date_name f) p /\ dpt_value p x)
  /\ (forall f n, num_get f i = Some n <-> exists p, stored i (num_name f) p /\ (n <= num_max f)%N /\ numeral (p_val p) n).
Proof.
  intros U i. unfold stored. split; [|split; [|split]].
  - intros f s. assert (field_get f i = option_map p_val (map_get (lit (field_name f)) (i_props i))) as -> by now destruct f.
    destruct (map_get _ _) as [p|]; cbn [option_map]; split; try easy.
    + intros H. injection H as <-. eauto.
    + intros (q & H & <-). now injection H as ->.
    + intros (q & H & _). easy.
  - intros f d. assert (time_get f i = match map_get (lit (time_name f)) (i_props i) with Some p => parse_dt_z (p_val p) | None => None end) as ->.
    { destruct f; cbn [time_get time_name]; unfold get_timestamp, get_created, get_last_modified, get_completed, property_value; now destruct (map_get _ _). }
    destruct (map_get _ _) as [p|]; split; try easy.
    + intros H. apply C71_utc in H. exists p. now split.
    + intros (q & H & T). injection H as ->. now apply C71_utc.
    + intros (q & H & _). easy.
  - intros f x. assert (date_get f i = match map_get (lit (date_name f)) (i_props i) with Some p => dpt_from_property p | None => None end) as -> by now destruct f.
    destruct (map_get _ _) as [p|]; split; try easy.
    + intros H. apply C71_property in H. exists p. now split.
    + intros (q & H & T). injection H as ->. now apply C71_property.
    + intros (q & H & _). easy.
  - intros f n. assert (num_get f i = Some n <-> exists s, property_value i (lit (num_name f)) = Some s /\ (n <= num_max f)%N /\ numeral s n) as ->.
    { destruct f; cbn [num_get num_name num_max]; [apply C20_priority|apply C21_integers|apply C21_integers]. }
    unfold property_value. split.
    + intros (s & H & B). destruct (map_get _ _) as [p|]; [|easy]. injection H as <-. eauto.
    + intros (p & H & B). exists (p_val p). now rewrite H.
Qed.
Print Assumptions C75_stored.

Lemma says_same : forall q p p' k, says q p -> says q p' -> map_get k (p_params p) = map_get k (p_params p').
Proof.
  intros q p p' k (_ & _ & N & H) (_ & _ & N' & H').
  destruct (map_get k (p_params p)) as [v|] eqn:G.
  - apply map_get_in in G. apply H, H' in G. symmetry. now apply nodup_get.
  - destruct (map_get k (p_params p')) as [v|] eqn:G'; [|easy]. apply map_get_in in G'. apply H', H in G'.
    apply nodup_get in G'; [|easy]. now rewrite G in G'.
Qed.
Lemma says_dpt : forall q p p' x, says q p -> says q p' -> dpt_value p x -> dpt_value p' x.
Proof.
  intros q p p' x S S' D. pose proof (fun k => says_same q p p' k S S') as G. destruct S as (_ & V & _), S' as (_ & V' & _).
  assert (p_val p' = p_val p) as W by congruence. unfold is_date in *.
  destruct D; [apply dv_date|apply dv_zone|apply dv_local|apply (dv_utc _ _ s)]; unfold is_date in *; rewrite ?W; rewrite <- ?G; easy.
Qed.
Lemma kept_line : forall c n (R : property -> Prop), ~ multi_name (lit n) ->
  (forall q p p', says q p -> says q p' -> R p -> R p') ->
  (exists p, stored (conv_inner c) n p /\ R p) <-> exists q p, last_line c n q /\ says q p /\ R p.
Proof.
  intros c n R M Rs. pose proof (C41_kept_partial c) as K. unfold stored, last_line. remember (conv_inner c) as i eqn:E. clear E.
  destruct K as [m ps cs i K1 K2 K3]. specialize (K1 _ M) as [K1 _]. cbn [pc_props]. split.
  - intros (p & S & H). rewrite S in K1. destruct K1 as (q & L & Sq). now exists q, p.
  - intros (q & p & L & Sq & H). destruct (map_get _ _) as [p'|].
    + destruct K1 as (q' & L' & Sq'). rewrite (last_of_fun _ _ _ _ _ _ L' L) in Sq'. exists p'. split; [easy|]. now apply (Rs q p).
    + destruct L as (a & b & -> & Q & _). apply Forall_app in K1 as [_ K1]. now inversion_clear K1.
Qed.
Lemma kept_value : forall c n (R : str -> Prop), ~ multi_name (lit n) ->
  (exists p, stored (conv_inner c) n p /\ R (p_val p)) <-> exists q, last_line c n q /\ R (pr_val q).
Proof.
  intros c n R M. rewrite (kept_line c n (fun p => R (p_val p)) M).
  - split; [intros (q & p & L & (_ & V & _) & H); exists q; split; [easy|now rewrite <- V]|].
    intros (q & L & H). exists q, (conv_prop q). split; [easy|]. split; [apply conv_prop_says|easy].
  - intros q p p' (_ & V & _) (_ & V' & _). now rewrite V, V'.
Qed.

Lemma by_value : forall i n v, property_value i (lit n) = Some v <-> exists p, stored i n p /\ p_val p = v.
Proof.
  intros i n v. unfold property_value, stored. destruct (map_get _ _) as [p|]; cbn [option_map]; split; try easy.
  - intros H. injection H as <-. eauto.
  - intros (q & H & <-). now injection H as ->.
  - intros (q & H & _). easy.
Qed.
Ltac not_multi := intros (m & I & Q); cbn [multi_names In] in I; repeat (destruct I as [<-|I]; [vm_compute in Q; discriminate Q|]); easy.
(** Of a component read from a text they answer what the last line with that name says. *)
Theorem C75_parsed : forall {U : Unicode} c, let i := cc_inner (conv_cc c) in
  (forall f s, field_get f i = Some s <-> exists q, last_line c (field_name f) q /\ pr_val q = s)
  /\ (forall f d, time_get f i = Some d <-> exists q, last_line c (time_name f) q /\ utc_text (pr_val q) d)
  /\ (forall f x, date_get f i = Some x <-> exists q p, last_line c (date_name f) q /\ says q p /\ dpt_value p x)
  /\ (forall f n, num_get f i = Some n <-> exists q, last_line c (num_name f) q /\ (n <= num_max f)%N /\ numeral (pr_val q) n)
  /\ (forall x, get_class i = Some x <-> exists q, last_line c "CLASS" q /\ pr_val q = lit (class_text x))
  /\ (forall x, event_get_status i = Some x <-> exists q, last_line c "STATUS" q /\ pr_val q = lit (event_status_text x))
  /\ (forall x, todo_get_status i = Some x <-> exists q, last_line c "STATUS" q /\ pr_val q = lit (todo_status_text x)).
Proof.
  intros U c i. assert (i = conv_inner c) as E.
  { subst i. unfold conv_cc. repeat (destruct (str_eqb _ _); [easy|]). easy. } clearbody i. subst i.
  destruct (C75_stored (conv_inner c)) as (A & B & C & D). repeat apply conj.
  - intros f s. rewrite A. apply (kept_value c _ (fun v => v = s)); destruct f; not_multi.
  - intros f d. rewrite B. apply (kept_value c _ (fun v => utc_text v d)); destruct f; not_multi.
  - intros f x. rewrite C. apply (kept_line c _ (fun p => dpt_value p x)); [destruct f; not_multi|].
    intros q p p'. apply says_dpt.
  - intros f n. rewrite D. apply (kept_value c _ (fun v => (n <= num_max f)%N /\ numeral v n)); destruct f; not_multi.
  - intros x. destruct C22_words as (_ & _ & _ & W & _). rewrite W, by_value. apply (kept_value c _ (fun v => v = lit (class_text x))); not_multi.
  - intros x. destruct C22_words as (_ & _ & _ & _ & W & _). rewrite W, by_value. apply (kept_value c _ (fun v => v = lit (event_status_text x))); not_multi.
  - intros x. destruct C22_words as (_ & _ & _ & _ & _ & W). rewrite W, by_value. apply (kept_value c _ (fun v => v = lit (todo_status_text x))); not_multi.
Qed.
Print Assumptions C75_parsed.

(** The accessors of a property hand its value and its parameters to the given reader; arrays of properties are converted
    element by element. *)
Theorem C75_access : forall {T} p (f : str -> option T) k x,
  (get_value_as p f = Some x <-> f (p_val p) = Some x)
  /\ (get_param_as p k f = Some x <-> exists v, map_get k (p_params p) = Some v /\ f v = Some x)
  /\ (forall {P} (into : P -> property) l q n, nth_error (from_array into l) n = Some q <-> exists a, nth_error l n = Some a /\ q = into a).
Proof.
  intros T p f k x. split; [easy|]. split.
  - unfold get_param_as. destruct (map_get _ _) as [v|]; split; try easy; [eauto|intros (w & H & F); now injection H as ->|intros (w & H & _); easy].
  - intros P into l q n. unfold from_array. rewrite nth_error_map. destruct (nth_error l n) as [a|]; cbn [option_map]; split; try easy.
    + intros H. injection H as <-. eauto.
    + intros (b & H & ->). now injection H as ->.
    + intros (b & H & _). easy.
Qed.
Print Assumptions C75_access.

(** Native times given as calendar times are written the same way. *)
Theorem C75_native : forall d k,
  dpt_to_property (dpt_from_cal_dt (cal_dt_from_utc d)) k = mk_property k (dpt_text (DT (Utc d))) []
  /\ dpt_to_property (dpt_from_cal_dt (cal_dt_from_naive d)) k = mk_property k (dpt_text (DT (Floating d))) [].
Proof. intros d k. split; reflexivity. Qed.
Print Assumptions C75_native.

Section Examples.
  Local Existing Instance some_unicode.
  Definition getters_doc : pcomp := mk_pcomp (lit "VTODO")
    [mk_pprop (lit "SUMMARY") (lit "a") []; mk_pprop (lit "DUE") (lit "20240229") [mk_pparam (lit "VALUE") (Some (lit "DATE"))];
     mk_pprop (lit "SUMMARY") (lit "b") []; mk_pprop (lit "PRIORITY") (lit "+5") []; mk_pprop (lit "STATUS") (lit "COMPLETED") [];
     mk_pprop (lit "CREATED") (lit "20240229T120000Z") []] [].
  Example C75_example : let i := cc_inner (conv_cc getters_doc) in
    field_get FSummary i = Some (lit "b") /\ date_get DDue i = Some (DDate (mk_date 2024 2 29)) /\ num_get NPriority i = Some 5%N
    /\ todo_get_status i = Some TCompleted /\ time_get TimeCreated i = Some (mk_dt (mk_date 2024 2 29) (mk_time 12 0 0 0))
    /\ num_get NSequence i = None.
  Proof. repeat split. Qed.
End Examples.
