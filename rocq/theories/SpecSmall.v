(** Single values read from any property or calendar: triggers, the time to live, actions. *)
From Verif Require Import Str ValueTypes Property Chrono DateTime Component Alarm Calendar SpecDate SpecBuild SpecCal SpecScan.

(** The durations the crate writes itself: P0D, and PT with seconds up to [u32::MAX], of whose decimals the first three count (in
    nanoseconds). *)
Inductive plain_duration : str -> N -> Prop :=
| pd_zero : plain_duration (lit "P0D") 0%N
| pd_whole : forall s n, decimal s n -> (n < 4294967296)%N -> plain_duration (lit "PT" ++ s ++ lit "S") (n * 1000000000)%N
| pd_short : forall s n f m k, decimal s n -> (n < 4294967296)%N -> decimal f m -> length f + k = 3 ->
    plain_duration (lit "PT" ++ s ++ lit "." ++ f ++ lit "S") (n * 1000000000 + m * 10 ^ N.of_nat k * 1000000)%N
| pd_long : forall s n f m g x, decimal s n -> (n < 4294967296)%N -> decimal f m -> length f = 3 -> decimal g x ->
    plain_duration (lit "PT" ++ s ++ lit "." ++ f ++ g ++ lit "S") (n * 1000000000 + m * 1000000)%N.
(** Any other text that begins with P is left to the library. *)
Definition iso_value {I : Iso8601} (s : str) (n : N) : Prop :=
  plain_duration s n \/ (exists r, s = lit "P" ++ r) /\ (forall m, ~ plain_duration s m) /\ iso_other s = Some n.

(** A duration as the reader (iso8601) and chrono take it: a number of nanoseconds, at most [i64::MAX] milliseconds. *)
Definition reads_duration {I : Iso8601} (s : str) (d : duration) : Prop :=
  exists n, iso_value s n /\ (n <= 9223372036854775807 * 1000000)%N /\ d = Z.of_N n.

(** The trigger a property stands for. *)
Definition related_value (p : property) (r : option related) : Prop :=
  (map_get (lit "RELATED") (p_params p) = Some (lit "START") /\ r = Some RStart)
  \/ (map_get (lit "RELATED") (p_params p) = Some (lit "END") /\ r = Some REnd)
  \/ (map_get (lit "RELATED") (p_params p) <> Some (lit "START") /\ map_get (lit "RELATED") (p_params p) <> Some (lit "END") /\ r = None).
Inductive trigger_value {I : Iso8601} (p : property) : trigger -> Prop :=
| tv_local : forall d, p_key p = lit "TRIGGER" -> map_get (lit "VALUE") (p_params p) = Some (lit "DATE-TIME") ->
    dt_text d (p_val p) [] -> trigger_value p (TDateTime (Floating d))
| tv_utc : forall d s, p_key p = lit "TRIGGER" -> map_get (lit "VALUE") (p_params p) = Some (lit "DATE-TIME") ->
    p_val p = s ++ lit "Z" -> dt_text d s (lit "Z") -> trigger_value p (TDateTime (Utc d))
| tv_duration : forall d r, p_key p = lit "TRIGGER" ->
    map_get (lit "VALUE") (p_params p) = None \/ map_get (lit "VALUE") (p_params p) = Some (lit "DURATION") ->
    related_value p r -> reads_duration (p_val p) d -> trigger_value p (TDuration d r).

(** The time to live: the first REFRESH-INTERVAL if it can be read as a duration, else the first X-PUBLISHED-TTL; too
    long a REFRESH-INTERVAL hides the other. *)
Inductive ttl_value {I : Iso8601} (ps : list property) : duration -> Prop :=
| tt_refresh : forall s d, first_value (lit "REFRESH-INTERVAL") ps s -> reads_duration s d -> ttl_value ps d
| tt_published : forall s d, (forall t, first_value (lit "REFRESH-INTERVAL") ps t -> forall n, ~ iso_value t n) ->
    first_value (lit "X-PUBLISHED-TTL") ps s -> reads_duration s d -> ttl_value ps d.

(** The name of an action. *)
Inductive action_named : action -> str -> Prop :=
| an_audio : action_named Audio (lit "AUDIO")
| an_email : action_named Email (lit "EMAIL")
| an_display : action_named Display (lit "DISPLAY")
| an_other : forall s, s <> lit "AUDIO" -> s <> lit "EMAIL" -> s <> lit "DISPLAY" -> action_named (ActionOther s) s.
