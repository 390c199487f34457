(** What the typed getters answer. *)
From Verif Require Import Str Spec ValueTypes Property Chrono DateTime Component Calendar Nom Parser
  SpecBuild SpecDate SpecDoc SpecMore SpecConv SpecScan.

(** The text of a UTC time. *)
Definition utc_text (s : str) (d : ndt) : Prop := exists a, s = a ++ lit "Z" /\ dt_text d a (lit "Z").

(** The getters, with what they answer for a text or a property that is stored under a name. *)
Inductive time_field := TimeStamp | TimeCreated | TimeModified | TimeCompleted.
Definition time_get (f : time_field) : inner -> option ndt :=
  match f with TimeStamp => get_timestamp | TimeCreated => get_created | TimeModified => get_last_modified | TimeCompleted => get_completed end.
Definition time_name (f : time_field) : string :=
  match f with TimeStamp => "DTSTAMP" | TimeCreated => "CREATED" | TimeModified => "LAST_MODIFIED" | TimeCompleted => "COMPLETED" end%string.
(** The name of RFC 5545. *)
Definition rfc_time_name (f : time_field) : string :=
  match f with TimeModified => "LAST-MODIFIED"%string | _ => time_name f end.
Inductive date_field := DStart | DEnd | DDue.
Definition date_get {U : Unicode} (f : date_field) : inner -> option dpt :=
  match f with DStart => get_start | DEnd => get_end | DDue => get_due end.
Definition date_name (f : date_field) : string :=
  match f with DStart => "DTSTART" | DEnd => "DTEND" | DDue => "DUE" end%string.
Inductive num_field := NPriority | NSequence | NPercent.
Definition num_get (f : num_field) : inner -> option N :=
  match f with NPriority => get_priority | NSequence => get_sequence | NPercent => get_percent_complete end.
Definition num_name (f : num_field) : string :=
  match f with NPriority => "PRIORITY" | NSequence => "SEQUENCE" | NPercent => "PERCENT-COMPLETE" end%string.
Definition num_max (f : num_field) : N := match f with NPriority => 10 | NSequence => 4294967295 | NPercent => 255 end%N.

(** The last line of a parsed component with a name. *)
Definition last_line (c : pcomp) (n : string) (q : pprop) : Prop := last_of pr_name (lit n) (pc_props c) q.
