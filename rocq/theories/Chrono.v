(** The parts of chrono 0.4, iso8601 0.6 and uuid 1 that the crate calls.  These crates are
    not in /repo; their behaviour is part of the trusted base (DESIGN.md). *)
From Verif Require Import Str.

(** [NaiveDateTime] (also [DateTime<Utc>], which is a UTC [NaiveDateTime]). [nano] is
    below 2e9: values from 1e9 are chrono's leap-second representation. *)
Record ndate := mk_date { year : Z; month : N; day : N }.
Record ntime := mk_time { hour : N; minute : N; second : N; nano : N }.
Record ndt := mk_dt { date_of : ndate; time_of : ntime }.

Definition is_leap (y : Z) : bool :=
  ((y mod 4 =? 0) && (negb (y mod 100 =? 0) || (y mod 400 =? 0)))%Z.
Definition days_in_month (y : Z) (m : N) : N :=
  (if m =? 2 then if is_leap y then 29 else 28
   else if (m =? 4) || (m =? 6) || (m =? 9) || (m =? 11) then 30 else 31)%N.

(** [NaiveDate::from_ymd_opt] *)
Definition from_ymd_opt (y : Z) (m d : N) : option ndate :=
  if ((-262143 <=? y) && (y <=? 262142))%Z && in_range 1 12 m && in_range 1 (days_in_month y m) d
  then Some (mk_date y m d) else None.

(** [format("%Y")]: four digits for 0..=9999, otherwise an explicit sign. *)
Definition fmt_year (y : Z) : str :=
  if ((0 <=? y) && (y <=? 9999))%Z then pad 4 (Z.to_N y)
  else (if (y <? 0)%Z then DASH else PLUS) :: pad 4 (Z.abs_N y).
(** [format("%Y%m%d")] *)
Definition fmt_date (d : ndate) : str := fmt_year (year d) ++ pad 2 (month d) ++ pad 2 (day d).
(** [format("%H%M%S")]: a leap second prints as the next second (60). *)
Definition fmt_time (t : ntime) : str :=
  pad 2 (hour t) ++ pad 2 (minute t) ++ pad 2 (second t + nano t / 1000000000)%N.

(** [format::scan::number] with at least one and at most [w] digits ([None]: unlimited),
    failing on overflow of [i64]. *)
Fixpoint span_digits (w : option nat) (s : str) : str * str :=
  match s with
  | [] => ([], [])
  | c :: r =>
      match w with
      | Some O => ([], s)
      | _ => if is_digit c then
               let '(a, b) := span_digits (option_map pred w) r in (c :: a, b)
             else ([], s)
      end
  end.
Definition I64_MAX : N := 9223372036854775807%N.
Definition scan_number (w : option nat) (s : str) : option (N * str) :=
  match span_digits w s with
  | ([], _) => None
  | (ds, r) => if (dec_val ds <=? I64_MAX)%N then Some (dec_val ds, r) else None
  end.

(** [Item::Numeric(Year)]: leading whitespace, optional sign with unlimited digits,
    otherwise at most four; the value must fit [i32]. *)
Definition scan_year (s : str) : option (Z * str) :=
  let s := trim_start s in
  match match s with
        | c :: r =>
            if (c =? DASH)%N then
              option_map (fun '(n, t) => ((- Z.of_N n)%Z, t)) (scan_number None r)
            else if (c =? PLUS)%N then
              option_map (fun '(n, t) => (Z.of_N n, t)) (scan_number None r)
            else option_map (fun '(n, t) => (Z.of_N n, t)) (scan_number (Some 4) s)
        | [] => None
        end with
  | Some (y, t) => if ((-2147483648 <=? y) && (y <=? 2147483647))%Z then Some (y, t) else None
  | None => None
  end.
(** The two-digit numeric items, with the range check of [Parsed::set_*]. *)
Definition scan_two (lo hi : N) (s : str) : option (N * str) :=
  match scan_number (Some 2) (trim_start s) with
  | Some (n, t) => if in_range lo hi n then Some (n, t) else None
  | None => None
  end.
(** [Item::Literal] for a single ASCII character. *)
Definition scan_lit (c : char) (s : str) : option str :=
  match s with x :: r => if (x =? c)%N then Some r else None | [] => None end.

(** Items [%Y%m%d], before the calendar check. *)
Definition scan_ymd (s : str) : option (Z * N * N * str) :=
  match scan_year s with
  | None => None
  | Some (y, s1) =>
      match scan_two 1 12 s1 with
      | None => None
      | Some (m, s2) =>
          match scan_two 1 31 s2 with
          | None => None
          | Some (d, s3) => Some (y, m, d, s3)
          end
      end
  end.
(** Items [%H%M%S] and [Parsed::to_naive_time]. *)
Definition scan_hms (s : str) : option (ntime * str) :=
  match scan_two 0 23 s with
  | None => None
  | Some (h, s1) =>
      match scan_two 0 59 s1 with
      | None => None
      | Some (mi, s2) =>
          match scan_two 0 60 s2 with
          | None => None
          | Some (sec, s3) =>
              Some (if (sec =? 60)%N then mk_time h mi 59 1000000000 else mk_time h mi sec 0, s3)
          end
      end
  end.

(** [NaiveDate::parse_from_str(s, "%Y%m%d")] *)
Definition parse_date (s : str) : option ndate :=
  match scan_ymd s with
  | Some (y, m, d, []) => from_ymd_opt y m d
  | _ => None
  end.
(** Items [%Y%m%dT%H%M%S]. *)
Definition scan_dt (s : str) : option (ndt * str) :=
  match scan_ymd s with
  | Some (y, m, d, s1) =>
      match scan_lit 84%N s1 with
      | Some s2 =>
          match scan_hms s2 with
          | Some (t, s3) =>
              match from_ymd_opt y m d with Some dd => Some (mk_dt dd t, s3) | None => None end
          | None => None
          end
      | None => None
      end
  | None => None
  end.
(** [NaiveDateTime::parse_from_str(s, "%Y%m%dT%H%M%S")] *)
Definition parse_dt (s : str) : option ndt :=
  match scan_dt s with Some (d, []) => Some d | _ => None end.
(** [Utc.datetime_from_str(s, "%Y%m%dT%H%M%SZ")] *)
Definition parse_dt_z (s : str) : option ndt :=
  match scan_dt s with Some (d, [c]) => if (c =? 90)%N then Some d else None | _ => None end.

(** [chrono::Duration] as a signed number of nanoseconds. *)
Definition duration := Z.

Definition GIGA : N := 1000000000%N.
(** The fraction digits printed by [Display for TimeDelta]: trailing zeros removed. *)
Fixpoint frac_go (fuel : nat) (figures : nat) (n : N) : str :=
  match fuel with
  | O => pad figures n
  | S f => if (n mod 10 =? 0)%N then frac_go f (figures - 1) (n / 10)%N else pad figures n
  end.
(** [Display for chrono::TimeDelta] *)
Definition dur_text (d : duration) : str :=
  let a := Z.abs_N d in
  (if (d <? 0)%Z then [DASH] else []) ++ lit "P" ++
  (if (a =? 0)%N then lit "0D"
   else lit "T" ++ dec (a / GIGA)%N
        ++ (if (a mod GIGA =? 0)%N then [] else 46%N :: frac_go 8 9 (a mod GIGA)%N)
        ++ lit "S").

(** [iso8601::duration] followed by the conversion to [std::time::Duration] (here: a number of
    nanoseconds).  It is modelled only on texts not starting with [P] (rejected) and on
    the texts [P0D], [PT<n>S] and [PT<n>.<f>S] with [n] in [u32] (the fraction is truncated to
    milliseconds); every other text is an arbitrary function. *)
Class Iso8601 := { iso_other : str -> option N }.

Definition frac_millis (f : str) : N :=
  dec_val (firstn 3 (f ++ [48; 48; 48]%N)).

Definition iso_simple (s : str) : option N :=
  if str_eqb s (lit "P0D") then Some 0%N
  else if starts_with (lit "PT") s then
    match span_digits None (skipn 2 s) with
    | ([], _) => None
    | (n, r) =>
        if (dec_val n <=? U32_MAX)%N then
          if str_eqb r (lit "S") then Some (dec_val n * GIGA)%N
          else match r with
               | c :: r1 =>
                   if (c =? 46)%N then
                     match span_digits None r1 with
                     | ([], _) => None
                     | (f, r2) =>
                         if str_eqb r2 (lit "S")
                         then Some (dec_val n * GIGA + frac_millis f * 1000000)%N
                         else None
                     end
                   else None
               | [] => None
               end
        else None
    end
  else None.

Definition iso_parse {I : Iso8601} (s : str) : option N :=
  if starts_with (lit "P") s then
    match iso_simple s with Some d => Some d | None => iso_other s end
  else None.

(** [chrono::Duration::from_std]: at most [i64::MAX] milliseconds. *)
Definition dur_from_std (n : N) : option duration :=
  if (n <=? I64_MAX * 1000000)%N then Some (Z.of_N n) else None.

(** [Display for Uuid]: lower-case hexadecimal, 8-4-4-4-12. *)
Definition hex_digit (n : N) : char := (if n <? 10 then 48 + n else 87 + n)%N.
Fixpoint hex (w : nat) (n : N) : str :=
  match w with O => [] | S w' => hex w' (n / 16)%N ++ [hex_digit (n mod 16)%N] end.
Definition fmt_uuid (n : N) : str :=
  let h := hex 32 n in
  firstn 8 h ++ DASH :: firstn 4 (skipn 8 h) ++ DASH :: firstn 4 (skipn 12 h)
  ++ DASH :: firstn 4 (skipn 16 h) ++ DASH :: skipn 20 h.
