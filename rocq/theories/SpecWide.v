(** Dates of every year: the year has four digits from 0 to 9999, else a sign and at least four digits. *)
From Verif Require Import Str Property Chrono DateTime SpecDate SpecText.

Inductive year_written (y : Z) : str -> Prop :=
| yw_four : forall s, (0 <= y <= 9999)%Z -> digits 4 (Z.to_N y) s -> year_written y s
| yw_after : forall s, (9999 < y)%Z -> decimal s (Z.to_N y) -> hd 0%N s <> 48%N -> year_written y (43%N :: s)
| yw_before : forall s, (y < 0)%Z -> decimal s (Z.to_N (- y)) -> 4 <= length s -> (hd 0%N s = 48%N -> length s = 4) -> year_written y (45%N :: s).
Definition day_written (d : ndate) (s : str) : Prop := exists y m dd,
  s = y ++ m ++ dd /\ year_written (year d) y /\ digits 2 (month d) m /\ digits 2 (day d) dd.
Definition moment_written (d : ndt) (s : str) : Prop := exists a b,
  s = a ++ lit "T" ++ b /\ day_written (date_of d) a /\ time_digits (time_of d) b.
Definition dpt_written (x : dpt) (s : str) (qs : list parameter) : Prop :=
  match x with
  | DDate d => day_written d s /\ qs = [(lit "VALUE", lit "DATE")]
  | DT (Floating d) => moment_written d s /\ qs = []
  | DT (Utc d) => (exists r, s = r ++ lit "Z" /\ moment_written d r) /\ qs = []
  | DT (WithTimezone d z) => moment_written d s /\ qs = [(lit "TZID", z)]
  end.
