(** The error messages: [nom::error::convert_error] (nom 7, not in /repo) and its uses in
    src/parser/mod.rs:59-99, src/parser/calendar.rs:94-101 and src/parser/components.rs:171-178, 240-245. *)
From Verif Require Import Str Fold Text ValueTypes Property Chrono DateTime Component Calendar Nom Parser.

(** [{:?}] of [nom::error::ErrorKind]. *)
Definition kind_name (k : ekind) : str :=
  lit (match k with
       | KTag => "Tag" | KCrLf => "CrLf" | KTakeTill1 => "TakeTill1" | KIsNot => "IsNot"
       | KTakeUntil => "TakeUntil" | KEof => "Eof" | KAlt => "Alt" | KMany0 => "Many0"
       | KManyTill => "ManyTill" | KSatisfy => "Satisfy" end).
Definition vkind_name (k : vkind) : str :=
  match k with VNom k => kind_name k | VContext c => lit c end.

(** [&input[..offset]] where [offset] is the byte offset of the suffix [sub] of [input]. *)
Definition before (input sub : str) : str := firstn (length input - length sub) input.

Definition count_lf (s : str) : nat := length (filter (fun c => (c =? LF)%N) s).

(** The part of a text behind its last line feed. *)
Definition last_line (s : str) : str :=
  rev (fst (span (fun c => negb (c =? LF)%N) (rev s))).

(** [str::trim_end]. *)
Definition trim_end (s : str) : str := rev (trim_start (rev s)).

(** [lines().next().unwrap_or(..).trim_end()]: up to the first line feed; the carriage return that
    [lines] takes off is white space, which [trim_end] takes off as well. *)
Definition shown_line (s : str) : str := trim_end (fst (span (fun c => negb (c =? LF)%N) s)).

(** [{caret:>column$}]: the width counts characters, the column bytes. *)
Definition caret (column : nat) : str := repeat SP (column - 1) ++ lit "^".

(** One entry of the stack. *)
Definition error_entry (input : str) (i : nat) (e : str * vkind) : str :=
  let '(sub, k) := e in
  match input with
  | [] => dec (N.of_nat i) ++ lit ": in " ++ vkind_name k ++ lit ", got empty input" ++ [LF; LF]
  | _ =>
      let prefix := before input sub in
      let here := last_line prefix in
      dec (N.of_nat i) ++ lit ": at line " ++ dec (N.of_nat (count_lf prefix + 1))
      ++ lit ", in " ++ vkind_name k ++ lit ":" ++ [LF]
      ++ shown_line (here ++ sub) ++ [LF] ++ caret (blen here + 1) ++ [LF; LF]
  end.
Fixpoint error_entries (input : str) (i : nat) (e : verror) : str :=
  match e with [] => [] | x :: r => error_entry input i x ++ error_entries input (S i) r end.
Definition convert_error (input : str) (e : verror) : str := error_entries input 0 e.

(** The [map_err] at src/parser/mod.rs:81 and 98, components.rs:244: [format!("error: {}", ..)]. *)
Definition message (input : str) (e : verror) : str := lit "error: " ++ convert_error input e.

Definition rmap_err {A E F} (f : E -> F) (r : result A E) : result A F :=
  match r with Ok a => Ok a | Err e => Err (f e) | OutOfFuel => OutOfFuel end.

(** The public functions with their [String] errors: src/parser/mod.rs:59-82, 94-99,
    src/parser/calendar.rs:94-101, src/parser/components.rs:117-126, 171-178, 240-245,
    src/parser/properties.rs:93-102, 118-124 and src/parser/parameters.rs:34-43. *)
Definition read_calendar_s {U : Unicode} (i : str) : result pcal str :=
  rmap_err (message i) (read_calendar i).
Definition read_components_s {U : Unicode} (i : str) : result (list pcomp) str :=
  rmap_err (message i) (read_components i).
Definition read_component_s {U : Unicode} (i : str) : result pcomp str :=
  rmap_err (message i) (read_component i).
Definition read_property_s {U : Unicode} (i : str) : result pprop str :=
  rmap_err (message i) (read_property i).
Definition read_parameter_s {U : Unicode} (i : str) : result pparam str :=
  rmap_err (message i) (read_parameter i).
Definition calendar_from_str_s {U : Unicode} (s : str) : result calendar str :=
  rmap conv_cal (read_calendar_s (unfold s)).
Definition cc_from_str_s {U : Unicode} (s : str) : result cal_component str :=
  rmap conv_cc (read_component_s (unfold s)).
Definition property_from_str_s {U : Unicode} (s : str) : result property str :=
  rmap conv_prop (read_property_s s).

(** [TryFrom<&parser::Property> for DatePerhapsTime] with its errors, src/components/date_time.rs:367-400. *)
Definition dpt_try_from_res (p : pprop) : result dpt str :=
  match parse_dt_z (pr_val p) with
  | Some d => Ok (DT (Utc d))
  | None =>
      match parse_date (pr_val p) with
      | Some d => Ok (DDate d)
      | None =>
          match parse_dt (pr_val p) with
          | Some d =>
              match find (fun q => str_eqb (pp_key q) (lit "TZID")) (pr_params p) with
              | Some q => match pp_val q with
                          | Some tz => Ok (DT (WithTimezone d tz))
                          | None => Err (lit "Found empty TZID param.")
                          end
              | None => Ok (DT (Floating d))
              end
          | None => Err (lit "Value does not look like a known DATE-TIME")
          end
      end
  end.
