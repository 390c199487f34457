(** The texts that are read as dates and times (chrono's formats, as far as the crate uses them). *)
From Verif Require Import Str ValueTypes Property Chrono DateTime Component Calendar Nom Parser SpecDate SpecBuild SpecMore.

(** White space, and then at most [w] digits (any number for [None]), as many as there are. *)
Definition spaces (w : str) : Prop := Forall (fun c => is_ws c = true) w.
Definition digit_next (s : str) : Prop := exists d r, (d < 10)%N /\ s = (48 + d)%N :: r.
Definition at_most (w : option nat) (ds rest : str) : Prop :=
  match w with Some k => length ds <= k /\ (length ds < k -> ~ digit_next rest) | None => ~ digit_next rest end.
Definition number_text (w : option nat) (n : N) (ds rest : str) : Prop := decimal ds n /\ at_most w ds rest.
(** A year: up to four digits, or a sign and any number of digits. *)
Inductive year_text : Z -> str -> str -> Prop :=
| yt_plain : forall w n ds rest, spaces w -> number_text (Some 4) n ds rest -> year_text (Z.of_N n) (w ++ ds) rest
| yt_plus : forall w n ds rest, spaces w -> number_text None n ds rest -> year_text (Z.of_N n) (w ++ 43%N :: ds) rest
| yt_minus : forall w n ds rest, spaces w -> number_text None n ds rest -> year_text (- Z.of_N n) (w ++ DASH :: ds) rest.
Definition two_text (n : N) (s rest : str) : Prop := exists w ds, s = w ++ ds /\ spaces w /\ number_text (Some 2) n ds rest.
(** A date, of the years chrono has. *)
Definition date_text (d : ndate) (s rest : str) : Prop := exists a b c, s = a ++ b ++ c
  /\ year_text (year d) a (b ++ c ++ rest) /\ two_text (month d) b (c ++ rest) /\ two_text (day d) c rest
  /\ real_date d /\ (-262143 <= year d <= 262142)%Z.
(** A time; the second 60 is the leap second. *)
Definition time_text (t : ntime) (s rest : str) : Prop := exists a b c h m sec, s = a ++ b ++ c
  /\ two_text h a (b ++ c ++ rest) /\ two_text m b (c ++ rest) /\ two_text sec c rest
  /\ (h < 24)%N /\ (m < 60)%N /\ (sec <= 60)%N /\ t = hms_time h m sec.
Definition dt_text (d : ndt) (s rest : str) : Prop := exists a b, s = a ++ lit "T" ++ b
  /\ date_text (date_of d) a (lit "T" ++ b ++ rest) /\ time_text (time_of d) b rest.

(** The value of a date property: a date if it says VALUE=DATE; else a time in the zone of TZID, or without TZID local or UTC. *)
Definition is_date (p : property) : Prop := map_get (lit "VALUE") (p_params p) = Some (lit "DATE").
Inductive dpt_value (p : property) : dpt -> Prop :=
| dv_date : forall d, is_date p -> date_text d (p_val p) [] -> dpt_value p (DDate d)
| dv_zone : forall d z, ~ is_date p -> map_get (lit "TZID") (p_params p) = Some z -> dt_text d (p_val p) [] ->
    dpt_value p (DT (WithTimezone d z))
| dv_local : forall d, ~ is_date p -> map_get (lit "TZID") (p_params p) = None -> dt_text d (p_val p) [] -> dpt_value p (DT (Floating d))
| dv_utc : forall d s, ~ is_date p -> map_get (lit "TZID") (p_params p) = None -> p_val p = s ++ lit "Z" -> dt_text d s (lit "Z") ->
    dpt_value p (DT (Utc d)).
(** The same for a parsed property: VALUE does not matter, nor TZID if the text is a date or in UTC. *)
Inductive pdpt_value (p : pprop) : dpt -> Prop :=
| pv_date : forall d, date_text d (pr_val p) [] -> pdpt_value p (DDate d)
| pv_zone : forall d q z, first_of pp_key (lit "TZID") (pr_params p) q -> pp_val q = Some z -> dt_text d (pr_val p) [] ->
    pdpt_value p (DT (WithTimezone d z))
| pv_local : forall d, Forall (fun q => pp_key q <> lit "TZID") (pr_params p) -> dt_text d (pr_val p) [] -> pdpt_value p (DT (Floating d))
| pv_utc : forall d s, pr_val p = s ++ lit "Z" -> dt_text d s (lit "Z") -> pdpt_value p (DT (Utc d)).
