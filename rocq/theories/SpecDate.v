(** Dates, times and numbers: specification. *)
From Verif Require Import Str Chrono DateTime.

(** Proleptic Gregorian calendar. *)
Definition leap_year (y : Z) : Prop := (y mod 4 = 0 /\ (y mod 100 <> 0 \/ y mod 400 = 0))%Z.
Inductive month_length : Z -> N -> N -> Prop :=
| ml_31 : forall y m, In m [1; 3; 5; 7; 8; 10; 12]%N -> month_length y m 31
| ml_30 : forall y m, In m [4; 6; 9; 11]%N -> month_length y m 30
| ml_29 : forall y, leap_year y -> month_length y 2 29
| ml_28 : forall y, ~ leap_year y -> month_length y 2 28.
Definition real_date (d : ndate) : Prop :=
  (1 <= day d)%N /\ exists l, month_length (year d) (month d) l /\ (day d <= l)%N.
(** A time of day; a leap second is second 59 with 1 to 2 billion nanoseconds. *)
Definition real_time (t : ntime) : Prop :=
  (hour t < 24 /\ minute t < 60 /\ second t < 60
   /\ (nano t < 1000000000 \/ second t = 59 /\ nano t < 2000000000))%N.
Definition real_dt (d : ndt) : Prop := real_date (date_of d) /\ real_time (time_of d).
Definition dt_of (c : cal_dt) : ndt :=
  match c with Floating d => d | Utc d => d | WithTimezone d _ => d end.
Definition real_dpt (x : dpt) : Prop :=
  match x with DT c => real_dt (dt_of c) | DDate d => real_date d end.

(** Years that are written with four digits. *)
Definition four_digits (d : ndate) : Prop := (0 <= year d <= 9999)%Z.
Definition dpt_date (x : dpt) : ndate :=
  match x with DT c => date_of (dt_of c) | DDate d => d end.
(** No fraction of a second. *)
Definition whole_seconds (t : ntime) : Prop := nano t = 0%N \/ nano t = 1000000000%N.
Definition dpt_whole (x : dpt) : Prop :=
  match x with DT c => whole_seconds (time_of (dt_of c)) | DDate _ => True end.

(** Decimal numerals. *)
Inductive decimal : str -> N -> Prop :=
| dc_one : forall d, (d < 10)%N -> decimal [(48 + d)%N] d
| dc_snoc : forall s n d, decimal s n -> (d < 10)%N -> decimal (s ++ [(48 + d)%N]) (10 * n + d)%N.
(** What [str::parse] of an unsigned integer accepts. *)
Definition numeral (s : str) (n : N) : Prop := decimal s n \/ exists r, s = 43%N :: r /\ decimal r n.

(** What is left of a time when its fraction is dropped. *)
Definition trunc_time (t : ntime) : ntime :=
  if (nano t <? 1000000000)%N then mk_time (hour t) (minute t) (second t) 0
  else mk_time (hour t) (minute t) 59 1000000000.
Definition trunc_dt (d : ndt) : ndt := mk_dt (date_of d) (trunc_time (time_of d)).

Definition trunc_cal_dt (c : cal_dt) : cal_dt :=
  match c with
  | Floating d => Floating (trunc_dt d)
  | Utc d => Utc (trunc_dt d)
  | WithTimezone d z => WithTimezone (trunc_dt d) z
  end.
Definition trunc_dpt (x : dpt) : dpt := match x with DT c => DT (trunc_cal_dt c) | DDate d => DDate d end.

(** The second 60 is read as chrono's leap second. *)
Definition hms_time (h mi s : N) : ntime :=
  if (s =? 60)%N then mk_time h mi 59 1000000000 else mk_time h mi s 0.
