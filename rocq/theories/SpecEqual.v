(** Equality of calendars: specification.  What it should be is in SpecAlike.v ([same_inner], [same_cc], [same_cal]). *)
From Verif Require Import Str Property Component Calendar SpecRound.

(** The parameters of a property are a map: no name twice. *)
Definition params_once (p : property) : Prop := NoDup (map fst (p_params p)).
(** At most one parameter: there is only one order. *)
Definition one_order (p : property) : Prop := length (p_params p) <= 1.
