(** Builder calls on a component and what each of them is meant to set. *)
From Verif Require Import Str ValueTypes Property Chrono DateTime Component Alarm.

(** A call of the builder API (the traits [Component] and [EventLike], and [Event], [Todo], [Venue]). *)
Inductive call :=
| KAppend (p : property) | KAdd (k v : str)
| KMulti (p : property) | KAddMulti (k v : str)
| KSub (o : other) | KAlarm (a : inner)
| KSummary (s : str) | KDescription (s : str) | KUid (s : str) | KUrl (s : str)
| KSequence (n : N) | KPriority (n : N) | KClass (c : class)
| KTimestamp (d : ndt) | KCreated (d : ndt) | KLastModified (d : ndt)
| KStarts (x : dpt) | KEnds (x : dpt) | KAllDay (d : ndate)
| KLocation (s : str) | KVenue (l u : str)
| KEventStatus (s : event_status) | KTodoStatus (s : todo_status)
| KPercent (n : N) | KDue (x : dpt) | KCompleted (d : ndt)
| KStreet (s : str) | KExtended (s : str) | KLocality (s : str) | KRegion (s : str)
| KCountry (s : str) | KPostal (s : str).

(** The model's function for each call. *)
Definition do_call (i : inner) (c : call) : inner :=
  match c with
  | KAppend p => append_property i p | KAdd k v => add_property i k v
  | KMulti p => insert_multi i p | KAddMulti k v => add_multi_property i k v
  | KSub o => append_component i o | KAlarm a => alarm i a
  | KSummary s => summary i s | KDescription s => description i s | KUid s => uid i s
  | KUrl s => url i s | KSequence n => sequence i n | KPriority n => priority i n
  | KClass c => set_class i c | KTimestamp d => timestamp i d | KCreated d => created i d
  | KLastModified d => last_modified i d | KStarts x => starts i x | KEnds x => ends i x
  | KAllDay d => all_day i d | KLocation s => location i s | KVenue l u => venue i l u
  | KEventStatus s => event_set_status i s | KTodoStatus s => todo_set_status i s
  | KPercent n => percent_complete i n | KDue x => due i x | KCompleted d => completed i d
  | KStreet s => street_address i s | KExtended s => extended_address i s
  | KLocality s => locality i s | KRegion s => region i s | KCountry s => country i s
  | KPostal s => postal_code i s
  end.
Definition run_calls (l : list call) (i : inner) : inner := fold_left do_call l i.

(** The text of a date or date-time as RFC 5545 writes it. *)
Definition dt_text (d : ndt) : str := fmt_date (date_of d) ++ lit "T" ++ fmt_time (time_of d).
Definition dpt_text (x : dpt) : str :=
  match x with
  | DDate d => fmt_date d
  | DT (Floating d) => dt_text d
  | DT (Utc d) => dt_text d ++ lit "Z"
  | DT (WithTimezone d _) => dt_text d
  end.
Definition class_text (c : class) : string :=
  match c with Public => "PUBLIC" | Private => "PRIVATE" | Confidential => "CONFIDENTIAL" end.
Definition event_status_text (s : event_status) : string :=
  match s with Tentative => "TENTATIVE" | Confirmed => "CONFIRMED" | Cancelled => "CANCELLED" end.
Definition todo_status_text (s : todo_status) : string :=
  match s with
  | NeedsAction => "NEEDS-ACTION" | TCompleted => "COMPLETED" | InProcess => "IN-PROCESS"
  | TCancelled => "CANCELLED"
  end.

(** A date or date-time property: DATE values carry VALUE=DATE, zoned ones TZID. *)
Definition dpt_params (x : dpt) : list parameter :=
  match x with
  | DDate _ => [(lit "VALUE", lit "DATE")]
  | DT (WithTimezone _ z) => [(lit "TZID", z)]
  | DT _ => []
  end.
(** The properties a call sets (LAST_MODIFIED: see C29). *)
Definition text_prop (k : string) (v : str) : property := mk_property (lit k) v [].
Definition dpt_prop (k : string) (x : dpt) : property := mk_property (lit k) (dpt_text x) (dpt_params x).
Definition utc_prop (k : string) (d : ndt) : property := text_prop k (dt_text d ++ lit "Z").
Definition sets (c : call) : list property :=
  match c with
  | KAppend p => [p] | KAdd k v => [mk_property k v []]
  | KMulti _ | KAddMulti _ _ | KSub _ | KAlarm _ => []
  | KSummary s => [text_prop "SUMMARY" s] | KDescription s => [text_prop "DESCRIPTION" s]
  | KUid s => [text_prop "UID" s] | KUrl s => [text_prop "URL" s]
  | KSequence n => [text_prop "SEQUENCE" (dec n)]
  | KPriority n => [text_prop "PRIORITY" (dec (N.min n 10))]
  | KClass c => [text_prop "CLASS" (lit (class_text c))]
  | KTimestamp d => [utc_prop "DTSTAMP" d]
  | KCreated d => [utc_prop "CREATED" d]
  | KLastModified d => [utc_prop "LAST_MODIFIED" d]
  | KStarts x => [dpt_prop "DTSTART" x] | KEnds x => [dpt_prop "DTEND" x]
  | KAllDay d => [dpt_prop "DTSTART" (DDate d); dpt_prop "DTEND" (DDate d)]
  | KLocation s => [text_prop "LOCATION" s]
  | KVenue l u => [mk_property (lit "LOCATION") l [(lit "VVENUE", u)]]
  | KEventStatus s => [text_prop "STATUS" (lit (event_status_text s))]
  | KTodoStatus s => [text_prop "STATUS" (lit (todo_status_text s))]
  | KPercent n => [text_prop "PERCENT-COMPLETE" (dec n)]
  | KDue x => [dpt_prop "DUE" x] | KCompleted d => [utc_prop "COMPLETED" d]
  | KStreet s => [text_prop "STREET-ADDRESS" s] | KExtended s => [text_prop "EXTENDED-ADDRESS" s]
  | KLocality s => [text_prop "LOCALITY" s] | KRegion s => [text_prop "REGION" s]
  | KCountry s => [text_prop "COUNTRY" s] | KPostal s => [text_prop "POSTAL-CODE" s]
  end.
(** The multi-properties and the sub-components a call appends. *)
Definition multis (c : call) : list property :=
  match c with KMulti p => [p] | KAddMulti k v => [prop_new k v] | _ => [] end.
Definition subs (c : call) : list other :=
  match c with KSub o => [o] | KAlarm a => [(lit "VALARM", a)] | _ => [] end.

(** The last property with the given key. *)
Definition last_with (k : str) (l : list property) : option property :=
  find (fun p => str_eqb (p_key p) k) (rev l).
