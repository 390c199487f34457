(** Where the Unicode tables are looked at. *)
From Verif Require Import Str Component Parser.

(** The tables agree on which of the characters of [s] beyond ASCII are letters or digits. *)
Definition same_letters (U V : Unicode) (s : str) : Prop := forall c, In c s -> (128 <= c)%N -> @alnum_hi U c = @alnum_hi V c.
(** They agree on the small letters of the characters of [s] beyond ASCII. *)
Definition same_lower (U V : Unicode) (s : str) : Prop := forall c, In c s -> (128 <= c)%N -> @tolower_hi U c = @tolower_hi V c.
(** The names of a component and of those inside. *)
Fixpoint all_names (c : pcomp) : list str := match c with mk_pcomp n _ cs => n :: flat_map all_names cs end.
Definition ascii (s : str) : Prop := Forall (fun c => c < 128)%N s.
