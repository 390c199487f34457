(** Where the strings of a parsed calendar come from. *)
From Verif Require Import Str Spec Text ValueTypes Nom Parser SpecRound ZeroCopy.

(** ** What they say *)
Definition param_text (q : zparam) : pparam := mk_pparam (cow_str (zp_key q)) (option_map cow_str (zp_val q)).
Definition prop_text (p : zprop) : pprop := mk_pprop (cow_str (zr_name p)) (cow_str (zr_val p)) (map param_text (zr_params p)).
Fixpoint comp_text (c : zcomp) : pcomp :=
  match c with mk_zcomp n ps cs => mk_pcomp (cow_str n) (map prop_text ps) (map comp_text cs) end.
Definition cal_text (c : zcal) : pcal := mk_pcal (map prop_text (zcal_props c)) (map comp_text (zcal_comps c)).

(** ** Where they are *)

(** The strings, with their roles: a name, a key or the value of a parameter; the value of a property, which may be TEXT, and
    which may have no parameters before it. *)
Inductive role := RName | RValue (text bare : bool).
Definition value_role {U : Unicode} (p : zprop) : role :=
  RValue match determin_value_type (Parser.pr_name (prop_text p)) (pr_params (prop_text p)) with Some Text => true | _ => false end
         match zr_params p with [] => true | _ => false end.
Definition param_strings (q : zparam) : list (role * cow) :=
  (RName, zp_key q) :: match zp_val q with Some v => [(RName, v)] | None => [] end.
Definition prop_strings {U : Unicode} (p : zprop) : list (role * cow) :=
  (RName, zr_name p) :: concat (map param_strings (zr_params p)) ++ [(value_role p, zr_val p)].
(** In the order of the document: the name of a component, then its properties and its components, mixed. *)
Inductive comp_strings {U : Unicode} : zcomp -> list (role * cow) -> Prop :=
| Comp_strings : forall n ps cs l, mixed ps cs l -> comp_strings (mk_zcomp n ps cs) ((RName, n) :: l)
with mixed {U : Unicode} : list zprop -> list zcomp -> list (role * cow) -> Prop :=
| Mixed_end : mixed [] [] []
| Mixed_prop : forall p ps cs l, mixed ps cs l -> mixed (p :: ps) cs (prop_strings p ++ l)
| Mixed_comp : forall c ps cs l m, comp_strings c l -> mixed ps cs m -> mixed ps (c :: cs) (l ++ m).
Definition cal_strings {U : Unicode} (c : zcal) (l : list (role * cow)) : Prop := mixed (zcal_props c) (zcal_comps c) l.

(** A string drawn from the characters [a] to [b] of the text [t]: borrowed as it stands there, unless it is a TEXT value with
    an escape in it, which is copied;
    or the value of a property that has neither parameters nor a value. *)
Inductive drawn (t : str) : role * cow -> nat -> nat -> Prop :=
| Drawn_here : forall x y z r, t = x ++ y ++ z -> (forall b, r = RValue true b -> ~ escapes y) ->
    drawn t (r, Borrowed (y ++ z) (length y)) (length x) (length x + length y)
| Drawn_copied : forall x y z b, t = x ++ y ++ z -> escapes y ->
    drawn t (RValue true b, Owned (unescape_text y)) (length x) (length x + length y)
| Drawn_nothing : forall x a, a <= length t -> drawn t (RValue x true, Static []) a a.

(** One after the other between [a] and [b]. *)
Inductive laid (t : str) : nat -> list (role * cow) -> nat -> Prop :=
| Laid_end : forall a b, a <= b -> laid t a [] b
| Laid_next : forall a x c d l b, a <= c -> drawn t x c d -> laid t d l b -> laid t a (x :: l) b.

(** The octets that are copied, and those that are not; how many copies there are. *)
Definition copied (x : role * cow) : nat := match snd x with Owned s => blen s | _ => 0 end.
Definition lent (x : role * cow) : nat := match snd x with Owned _ => 0 | c => blen (cow_str c) end.
Definition is_copy (x : role * cow) : bool := match snd x with Owned _ => true | _ => false end.
