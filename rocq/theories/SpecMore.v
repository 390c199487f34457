(** Specifications for C54-C59. *)
From Verif Require Import Str Spec ValueTypes Property Chrono DateTime Component Calendar Nom Parser SpecDoc SpecConv.

(** ** Text fields *)

Inductive field :=
| FSummary | FDescription | FUid | FUrl | FLocation
| FStreetAddress | FExtendedAddress | FLocality | FRegion | FCountry | FPostalCode.
Definition field_set (f : field) : inner -> str -> inner :=
  match f with
  | FSummary => summary | FDescription => description | FUid => uid | FUrl => url | FLocation => location
  | FStreetAddress => street_address | FExtendedAddress => extended_address | FLocality => locality
  | FRegion => region | FCountry => country | FPostalCode => postal_code
  end.
Definition field_get (f : field) : inner -> option str :=
  match f with
  | FSummary => get_summary | FDescription => get_description | FUid => get_uid | FUrl => get_url
  | FLocation => get_location | FStreetAddress => get_street_address
  | FExtendedAddress => get_extended_address | FLocality => get_locality | FRegion => get_region
  | FCountry => get_country | FPostalCode => get_postal_code
  end.
(** The property names: RFC 5545, and for venues the iCalendar venue draft. *)
Definition field_name (f : field) : string :=
  match f with
  | FSummary => "SUMMARY" | FDescription => "DESCRIPTION" | FUid => "UID" | FUrl => "URL"
  | FLocation => "LOCATION" | FStreetAddress => "STREET-ADDRESS" | FExtendedAddress => "EXTENDED-ADDRESS"
  | FLocality => "LOCALITY" | FRegion => "REGION" | FCountry => "COUNTRY" | FPostalCode => "POSTAL-CODE"
  end%string.

(** ** Looking up parsed properties *)

(** [x] is the first element of [l] with the key [k]. *)
Definition first_of {A} (key : A -> str) (k : str) (l : list A) (x : A) : Prop :=
  exists a b, l = a ++ x :: b /\ key x = k /\ Forall (fun y => key y <> k) a.
(** At most one element has the key [k]. *)
Definition at_most_one {A} (key : A -> str) (k : str) (l : list A) : Prop :=
  forall a x b y c, l = a ++ x :: b ++ y :: c -> key x = k -> key y <> k.

(** ** Default value types: RFC 5545, sections 3.7, 3.8 (and the table in 8.3.2) *)
Definition rfc_default_types : list (string * value_type) :=
  [("ACTION", Text); ("ATTACH", Uri); ("ATTENDEE", CalAddress); ("CALSCALE", Text); ("CATEGORIES", Text);
   ("CLASS", Text); ("COMMENT", Text); ("COMPLETED", DateTime); ("CONTACT", Text); ("CREATED", DateTime);
   ("DESCRIPTION", Text); ("DTEND", DateTime); ("DTSTAMP", DateTime); ("DTSTART", DateTime);
   ("DUE", DateTime); ("DURATION", Duration); ("EXDATE", DateTime); ("FREEBUSY", Period); ("GEO", Float);
   ("LAST-MODIFIED", DateTime); ("LOCATION", Text); ("METHOD", Text); ("ORGANIZER", CalAddress);
   ("PERCENT-COMPLETE", Integer); ("PRIORITY", Integer); ("PRODID", Text); ("RDATE", DateTime);
   ("RECURRENCE-ID", DateTime); ("RELATED-TO", Text); ("REPEAT", Integer); ("REQUEST-STATUS", Text);
   ("RESOURCES", Text); ("RRULE", Recur); ("SEQUENCE", Integer); ("STATUS", Text); ("SUMMARY", Text);
   ("TRANSP", Text); ("TRIGGER", Duration); ("TZID", Text); ("TZNAME", Text); ("TZOFFSETFROM", UtcOffset);
   ("TZOFFSETTO", UtcOffset); ("TZURL", Uri); ("UID", Text); ("URL", Uri); ("VERSION", Text)]%string.
(** Names are compared without regard to the case of ASCII letters (RFC 5545, section 2). *)
Definition same_name (a b : str) : Prop := map lower_ascii a = map lower_ascii b.

(** ** Generated identifiers *)
From Verif Require Import SpecTree.
(** The UIDs that the tree [t] written for the component [i] has and [i] has not, from top to bottom. *)
Inductive new_uids : inner -> tree -> list str -> Prop :=
| New_uids : forall i k ps cs own rest,
    match map_get (lit "UID") (i_props i) with
    | Some _ => own = []
    | None => exists v, In (mk_property (lit "UID") v []) ps /\ own = [v]
    end ->
    new_uids_all (i_comps i) cs rest -> new_uids i (Node k ps cs) (own ++ rest)
with new_uids_all : list other -> list tree -> list str -> Prop :=
| New_nil : new_uids_all [] [] []
| New_cons : forall k i l t ts us vs, new_uids i t us -> new_uids_all l ts vs ->
    new_uids_all ((k, i) :: l) (t :: ts) (us ++ vs).
(** How many components there are, with those nested inside. *)
Fixpoint parts (i : inner) : nat :=
  match i with mk_inner _ _ cs => S (fold_right (fun o n => parts (snd o) + n) 0 cs) end.
Definition cal_parts (c : calendar) : nat := fold_right (fun x n => parts (cc_inner x) + n) 0 (c_comps c).
(** The first [k] random numbers are 128 bits long and all different. *)
Definition fresh (e : env) (k : nat) : Prop :=
  forall m n, m < k -> n < k -> (uuid_at e m < 2 ^ 128)%N /\ (uuid_at e m = uuid_at e n -> m = n).
