(** A text that is refused with a message. *)
From Verif Require Import Str ValueTypes Property Component Calendar Nom Parser ErrorText.

(** One of the readers does not read [i] and answers [m]. *)
Definition refused {U : Unicode} (i m : str) : Prop :=
  read_calendar_s i = Err m \/ read_components_s i = Err m \/ read_component_s i = Err m \/ read_property_s i = Err m \/ read_parameter_s i = Err m
  \/ calendar_from_str_s i = Err m \/ cc_from_str_s i = Err m \/ property_from_str_s i = Err m.
