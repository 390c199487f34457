(** The work of the parser on the values of properties: the parsers of Parser.v with a count of the places where
    [take_until] (src/parser/properties.rs:391-392) looks for a line break.  The other parsers count nothing. *)
From Verif Require Import Str Property Chrono DateTime Component Calendar Nom Parser Cost.

(** The places where [take_until t] looks for [t]: up to the first, or all of the text. *)
Fixpoint visited (t s : str) : nat :=
  S (if starts_with t s then 0 else match s with [] => 0 | _ :: r => visited t r end).

Section Searching.
  Context {U : Unicode} {E : Type} {PE : PErr E}.

  Definition stake_until (t : str) : cparser E str := fun i => (visited t i, take_until t i).
  (** [alt3] of Nom.v, counting. *)
  Definition calt3 {A} (p q s : cparser E A) : cparser E A :=
    fun i => let (n, x) := p i in
             match x with
             | IErr _ => let (m, y) := q i in
                         match y with
                         | IErr _ => let (k, z) := s i in
                                     (n + m + k, match z with
                                                 | IErr e => IErr (append_err i KAlt e)
                                                 | r => r
                                                 end)
                         | r => (n + m, r)
                         end
             | r => (n, r)
             end.
  (** The value of a property, src/parser/properties.rs:388-396. *)
  Definition svalue : cparser E str :=
    ccontext "property value" (calt3 (stake_until [CR; LF]) (stake_until [LF]) (free (take_while (fun _ => true)))).
  (** [property], src/parser/properties.rs:369-417. *)
  Definition sproperty : cparser E pprop :=
    ccontext "property"
      (ccut
        (cmap (fun '(((name, ps), v), _) => mk_pprop name (decode_value name ps v) ps)
          (cbind
            (calt2
              (cbind (free (pair (cut (context "property cannot be END or BEGIN" (preceded multispace0 property_key))) parameters)) (fun a =>
               cbind (free (context "property separator" (tag [COLON]))) (fun _ =>
               cbind svalue (fun c => free (pret (a, c))))))
              (free (context "no-value property" (pmap (fun k => ((k, []), [])) valid_key_sequence))))
            (fun a => cbind (free (opt line_ending)) (fun b => free (pret (a, b))))))).
  (** [component], src/parser/components.rs:247-285. *)
  Fixpoint scomponent (fuel : nat) : cparser E pcomp :=
    match fuel with
    | O => free (fun _ => IFuel)
    | S f =>
        cbind (free (line (lit "BEGIN:") valid_key_sequence)) (fun name =>
        cbind (fun i =>
                 cmany_till (S (length i))
                   (ccut (ccontext "component"
                     (calt2 (cline_separated (cmap inl (scomponent f)))
                            (cline_separated (cmap inr sproperty)))))
                   (line (lit "END:") (cut (context "mismatching end" (tag name)))) i)
              (fun '(body, _) =>
        cbind (free (fun i => many0 (S (length i)) (tag [LF]) i)) (fun _ =>
        free (pret (mk_pcomp name (children_props body) (children_comps body))))))
    end.
  Definition scomponent_p : cparser E pcomp := fun i => scomponent (S (length i)) i.
  (** [components], src/parser/components.rs:515-519. *)
  Definition scomponents_p : cparser E (list pcomp) :=
    fun i => cmany0 (S (length i)) (call_consuming scomponent_p) i.
End Searching.

(** The places looked at by [read_calendar] (and [read_components]) on a text. *)
Definition looks_of {U : Unicode} (i : str) : nat := fst (scomponents_p (E := verror) i).
(** What [read_calendar], src/parser/mod.rs:62-80, answers by the counting parsers. *)
Definition sread_calendar {U : Unicode} (i : str) : result pcal verror :=
  rmap pcal_of_roots (finish (snd (scomponents_p i))).
