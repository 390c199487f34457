(** Different data have different texts: specification. *)
From Verif Require Import Str Spec ValueTypes Property Chrono DateTime Component Calendar SpecBuild SpecDate SpecTree SpecRound.

(** The names in [M] are used for multi-properties only, the others for single properties only. *)
Inductive separated (M : str -> Prop) : inner -> Prop :=
| Separated : forall i,
    (forall k p, map_get k (i_props i) = Some p -> ~ M k) -> (forall k ps, map_get k (i_multi i) = Some ps -> M k) ->
    Forall (fun o => separated M (snd o)) (i_comps i) -> separated M i.
(** An event, a todo or a venue is made as such, not as another component of that name. *)
Definition proper_kind (c : cal_component) : Prop :=
  forall o, c = COther o -> ~ In (fst o) [lit "VEVENT"; lit "VTODO"; lit "VVENUE"].
(** So that all of its text is its own: DTSTAMP and UID are there, and names and kinds are used as said. *)
Definition unmistakable (M : str -> Prop) (c : cal_component) : Prop :=
  has_stamps (cc_inner c) /\ separated M (cc_inner c) /\ proper_kind c.
