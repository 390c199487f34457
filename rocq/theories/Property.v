(** src/properties.rs: [Parameter], [Property] and the property-valued enums. *)
From Verif Require Import Str Fold Text ValueTypes.

(** [Parameter], src/properties.rs:12-41: a (key, value) pair. *)
Definition parameter := (str * str)%type.

(** [Property], src/properties.rs:48-52.  [params] is a [HashMap<String, Parameter>] whose
    map key is always the parameter's own key (src/properties.rs:137 and
    src/parser/properties.rs:112), so one key is kept; the list order is the map's
    iteration order. *)
Record property := mk_property { p_key : str; p_val : str; p_params : list parameter }.

(** [Property::new], src/properties.rs:62-68. *)
Definition prop_new (k v : str) : property := mk_property k v [].

(** [Property::append_parameter]/[add_parameter], src/properties.rs:135-145. *)
Definition append_parameter (p : property) (q : parameter) : property :=
  mk_property (p_key p) (p_val p) (hm_insert (fst q) (snd q) (p_params p)).

(** [Property::done], src/properties.rs:148-154: the moved-out property and what is left. *)
Definition prop_done (p : property) : property * property :=
  (p, mk_property [] [] []).

(** [Property::value_type], src/properties.rs:101-106. *)
Definition prop_value_type {U : Unicode} (p : property) : option value_type :=
  match match map_get (lit "VALUE") (p_params p) with
        | Some v => vt_from_str v
        | None => None
        end with
  | Some t => Some t
  | None => by_name (p_key p)
  end.

(** The text of the parameters, src/properties.rs:183-185. *)
Definition params_text (ps : list parameter) : str :=
  concat (map (fun q => SEMI :: fst q ++ EQUALS :: quote_if_contains_colon (snd q)) ps).

(** The text of the value, src/properties.rs:186-190. *)
Definition value_text {U : Unicode} (p : property) : str :=
  match prop_value_type p with
  | Some Text => escape_text (p_val p)
  | _ => p_val p
  end.

(** The content line before folding, src/properties.rs:182-190. *)
Definition prop_line {U : Unicode} (p : property) : str :=
  p_key p ++ params_text (p_params p) ++ COLON :: value_text p.

(** [write_crlf!(out, "{}", fold_line(&line))], src/properties.rs:191 and
    src/parser/properties.rs:78 (macro at src/lib.rs:25-35). *)
Definition write_folded (line : str) : outcome str :=
  obind (fold_line line) (fun s => Ret (s ++ crlf)).

(** [Property::fmt_write] / [TryInto<String>], src/properties.rs:178-204. *)
Definition prop_write {U : Unicode} (p : property) : outcome str :=
  write_folded (prop_line p).

(** [Class], src/properties.rs:209-241. *)
Inductive class := Public | Private | Confidential.
Definition class_from_str (s : str) : option class :=
  assoc_lit s [("PUBLIC", Public); ("PRIVATE", Private); ("CONFIDENTIAL", Confidential)]%string.
Definition class_to_property (c : class) : property :=
  prop_new (lit "CLASS")
    (lit (match c with
          | Public => "PUBLIC" | Private => "PRIVATE" | Confidential => "CONFIDENTIAL" end)).

(** [EventStatus], src/properties.rs:246-265 and 301-313. *)
Inductive event_status := Tentative | Confirmed | Cancelled.
Definition event_status_from_str (s : str) : option event_status :=
  assoc_lit s
    [("TENTATIVE", Tentative); ("CONFIRMED", Confirmed); ("CANCELLED", Cancelled)]%string.
Definition event_status_to_property (c : event_status) : property :=
  prop_new (lit "STATUS")
    (lit (match c with
          | Tentative => "TENTATIVE" | Confirmed => "CONFIRMED" | Cancelled => "CANCELLED" end)).

(** [TodoStatus], src/properties.rs:270-292 and 340-353. *)
Inductive todo_status := NeedsAction | TCompleted | InProcess | TCancelled.
Definition todo_status_from_str (s : str) : option todo_status :=
  assoc_lit s
    [("NEEDS-ACTION", NeedsAction); ("COMPLETED", TCompleted); ("IN-PROCESS", InProcess);
     ("CANCELLED", TCancelled)]%string.
Definition todo_status_to_property (c : todo_status) : property :=
  prop_new (lit "STATUS")
    (lit (match c with
          | NeedsAction => "NEEDS-ACTION" | TCompleted => "COMPLETED"
          | InProcess => "IN-PROCESS" | TCancelled => "CANCELLED" end)).
