(** Calendars that are put together: specification. *)
From Verif Require Import Str Spec ValueTypes Property Component Calendar SpecDoc.

(** The clock and the random numbers after [n] readings. *)
Definition later (n : nat) (e : env) : env := mk_env (fun m => now_at e (n + m)) (fun m => uuid_at e (n + m)).
(** The last line of a calendar. *)
Definition foot : str := lit "END:VCALENDAR" ++ crlf.
(** The components of a document without its own lines. *)
Definition doc_parts (its : list (wline + wtree)) : list (wline + wtree) := flat_map (fun x => match x with inl _ => [] | inr t => [inr t] end) its.
(** A document with the components of another one put at its end. *)
Inductive doc_merged : wtree -> wtree -> wtree -> Prop :=
| Doc_merged : forall a b, doc_merged (W (lit "VCALENDAR") a) (W (lit "VCALENDAR") b) (W (lit "VCALENDAR") (a ++ doc_parts b)).
(** How often the clock and the random numbers are read for a component: once for each DTSTAMP and each UID that is missing, at any depth. *)
Fixpoint stamps_missing (i : inner) : nat :=
  match i with
  | mk_inner ps ms cs =>
      (match map_get (lit "DTSTAMP") ps with Some _ => 0 | None => 1 end) + (match map_get (lit "UID") ps with Some _ => 0 | None => 1 end)
      + list_sum (map (fun o => stamps_missing (snd o)) cs)
  end.
Definition cal_missing (c : calendar) : nat := list_sum (map (fun x => stamps_missing (cc_inner x)) (c_comps c)).
