(** src/components/date_time.rs *)
From Verif Require Import Str ValueTypes Property Chrono.

(** [parse_utc_date_time], src/components/date_time.rs:12-14. *)
Definition parse_utc_date_time (s : str) : option ndt := parse_dt_z s.
(** [parse_naive_date_time], src/components/date_time.rs:16-18. *)
Definition parse_naive_date_time (s : str) : option ndt := parse_dt s.
(** [naive_dt.format(NAIVE_DATE_TIME_FORMAT)], src/components/date_time.rs:7 and 100. *)
Definition format_naive_date_time (d : ndt) : str :=
  fmt_date (date_of d) ++ lit "T" ++ fmt_time (time_of d).
(** [format_utc_date_time], src/components/date_time.rs:20-22. *)
Definition format_utc_date_time (d : ndt) : str := format_naive_date_time d ++ lit "Z".
(** [parse_duration], src/components/date_time.rs:24-28. *)
Definition parse_duration {I : Iso8601} (s : str) : option duration :=
  match iso_parse s with Some n => dur_from_std n | None => None end.

(** [naive_date_to_property], src/components/date_time.rs:30-34. *)
Definition naive_date_to_property (d : ndate) (key : str) : property :=
  append_parameter (prop_new key (fmt_date d)) (vt_to_param Date).

(** [CalendarDateTime], src/components/date_time.rs:46-68. *)
Inductive cal_dt :=
| Floating (d : ndt)
| Utc (d : ndt)
| WithTimezone (d : ndt) (tzid : str).

(** [FromStr for CalendarDateTime], src/components/date_time.rs:231-239
    (with [from_utc_string] and [from_naive_string], 111-117). *)
Definition cal_dt_from_str (s : str) : option cal_dt :=
  match parse_utc_date_time s with
  | Some d => Some (Utc d)
  | None => option_map Floating (parse_naive_date_time s)
  end.

(** [CalendarDateTime::from_property], src/components/date_time.rs:81-95. *)
Definition cal_dt_from_property (p : property) : option cal_dt :=
  match map_get (lit "TZID") (p_params p) with
  | Some tzid => option_map (fun d => WithTimezone d tzid) (parse_dt (p_val p))
  | None => match parse_dt (p_val p) with
            | Some d => Some (Floating d)
            | None => cal_dt_from_str (p_val p)
            end
  end.

(** [CalendarDateTime::to_property], src/components/date_time.rs:97-109. *)
Definition cal_dt_to_property (c : cal_dt) (key : str) : property :=
  match c with
  | Floating d => prop_new key (format_naive_date_time d)
  | Utc d => prop_new key (format_utc_date_time d)
  | WithTimezone d tzid =>
      append_parameter (prop_new key (format_naive_date_time d)) (lit "TZID", tzid)
  end.

(** [DatePerhapsTime], src/components/date_time.rs:243-248. *)
Inductive dpt :=
| DT (c : cal_dt)
| DDate (d : ndate).

(** [DatePerhapsTime::from_property], src/components/date_time.rs:252-262. *)
Definition dpt_from_property {U : Unicode} (p : property) : option dpt :=
  match prop_value_type p with
  | Some Date => option_map DDate (parse_date (p_val p))
  | _ => option_map DT (cal_dt_from_property p)
  end.

(** [DatePerhapsTime::to_property], src/components/date_time.rs:265-270. *)
Definition dpt_to_property (x : dpt) (key : str) : property :=
  match x with
  | DT c => cal_dt_to_property c key
  | DDate d => naive_date_to_property d key
  end.

(** [DatePerhapsTime::date_naive], src/components/date_time.rs:273-281, and
    [From<DatePerhapsTime> for NaiveDate], 297-308. *)
Definition date_naive (x : dpt) : ndate :=
  match x with
  | DDate d => d
  | DT (Floating d) => date_of d
  | DT (Utc d) => date_of d
  | DT (WithTimezone d _) => date_of d
  end.
