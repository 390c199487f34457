(** src/value_types.rs *)
From Verif Require Import Str.

(** [ValueType], src/value_types.rs:7-36. *)
Inductive value_type :=
| Binary | Boolean | CalAddress | Date | DateTime | Duration | Float | Integer
| Period | Recur | Text | Time | Uri | UtcOffset.

(** First entry of a table whose name equals [s] (a Rust [match] on string literals). *)
Fixpoint assoc_lit {A} (s : str) (t : list (string * A)) : option A :=
  match t with
  | [] => None
  | (n, a) :: r => if str_eqb s (lit n) then Some a else assoc_lit s r
  end.

(** The table in [ValueType::by_name], src/value_types.rs:45-99. *)
Definition by_name_table : list (string * value_type) :=
  [("CALSCALE", Text); ("METHOD", Text); ("PRODID", Text); ("VERSION", Text);
   ("ATTACH", Uri); ("CATEGORIES", Text); ("CLASS", Text); ("COMMENT", Text);
   ("DESCRIPTION", Text); ("GEO", Float); ("LOCATION", Text);
   ("PERCENT-COMPLETE", Integer); ("PRIORITY", Integer); ("RESOURCES", Text);
   ("STATUS", Text); ("SUMMARY", Text); ("COMPLETED", DateTime); ("DTEND", DateTime);
   ("DUE", DateTime); ("DTSTART", DateTime); ("DURATION", Duration);
   ("FREEBUSY", Period); ("TRANSP", Text); ("TZID", Text); ("TZNAME", Text);
   ("TZOFFSETFROM", UtcOffset); ("TZOFFSETTO", UtcOffset); ("TZURL", Uri);
   ("ATTENDEE", CalAddress); ("CONTACT", Text); ("ORGANIZER", CalAddress);
   ("RECURRENCE-ID", DateTime); ("RELATED-TO", Text); ("URL", Uri); ("UID", Text);
   ("EXDATE", DateTime); ("RDATE", DateTime); ("RRULE", Recur); ("ACTION", Text);
   ("REPEAT", Integer); ("TRIGGER", Duration); ("CREATED", DateTime);
   ("DTSTAMP", DateTime); ("LAST-MODIFIED", DateTime); ("SEQUENCE", Integer);
   ("REQUEST-STATUS", Text)]%string.

(** [ValueType::by_name], src/value_types.rs:39-100. *)
Definition by_name {U : Unicode} (name : str) : option value_type :=
  if existsb is_lowercase name then None else assoc_lit name by_name_table.

(** [FromStr for ValueType], src/value_types.rs:115-137. *)
Definition vt_from_str (s : str) : option value_type :=
  assoc_lit s
    [("BINARY", Binary); ("BOOLEAN", Boolean); ("CAL-ADDRESS", CalAddress);
     ("DATE", Date); ("DATE-TIME", DateTime); ("DURATION", Duration);
     ("FLOAT", Float); ("INTEGER", Integer); ("PERIOD", Period); ("RECUR", Recur);
     ("TEXT", Text); ("TIME", Time); ("URI", Uri); ("UTC-OFFSET", UtcOffset)]%string.

(** [From<ValueType> for Parameter], src/properties.rs:316-338: the parameter's value
    (its key is "VALUE"). *)
Definition vt_name (t : value_type) : str :=
  lit (match t with
       | Binary => "BINARY" | Boolean => "BOOLEAN" | CalAddress => "CAL-ADDRESS"
       | Date => "DATE" | DateTime => "DATE-TIME" | Duration => "DURATION"
       | Float => "FLOAT" | Integer => "INTEGER" | Period => "PERIOD" | Recur => "RECUR"
       | Text => "TEXT" | Time => "TIME" | Uri => "URI" | UtcOffset => "UTC-OFFSET"
       end).

Definition vt_to_param (t : value_type) : str * str := (lit "VALUE", vt_name t).

(** [TryFrom<Parameter> for ValueType], src/value_types.rs:103-113. *)
Definition vt_try_from_param (p : str * str) : option value_type :=
  if negb (str_eqb (fst p) (lit "VALUE")) then None else vt_from_str (snd p).
