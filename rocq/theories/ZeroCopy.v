(** The parser with the strings as they are: borrowed from the text or copied (src/parser/parsed_string.rs). *)
From Verif Require Import Str Text ValueTypes Property Nom Parser.

(** [ParseString], src/parser/parsed_string.rs:6-8, a [Cow]: a literal of the program ([&'static str]), a part of the text that
    is parsed, or a copy.  [Borrowed i n] are the first [n] characters of [i], the rest of the text at that place. *)
Inductive cow := Static (s : str) | Borrowed (i : str) (n : nat) | Owned (s : str).
(** [as_str], 25-27, [AsRef<str>], 72-76, [Display], 90-94, and [From<ParseString> for String], 78-82. *)
Definition cow_str (c : cow) : str := match c with Static s | Owned s => s | Borrowed i n => firstn n i end.
(** [to_owned], 11-16, and [into_owned], 18-23. *)
Definition to_owned (c : cow) : cow := Owned (cow_str c).
Definition into_owned (c : cow) : cow := match c with Owned s => Owned s | _ => Owned (cow_str c) end.
(** [PartialEq], 60-64, and with [&str], 66-70. *)
Definition cow_eqb (c d : cow) : bool := str_eqb (cow_str c) (cow_str d).
Definition cow_is (c : cow) (s : str) : bool := str_eqb (cow_str c) s.
(** [unescape_text], 38-57: copied only if there is an escape, and [unescape_by_value_type], 31-36. *)
Definition cow_unescape (c : cow) : cow :=
  let s := cow_str c in
  if contains [BSL; BSL] s || contains [BSL; COMMA] s || contains [BSL; SEMI] s
     || contains [BSL; COLON] s || contains [BSL; 78%N] s || contains [BSL; 110%N] s
  then Owned (replace [BSL; 110%N] [LF]
         (replace [BSL; 78%N] [LF]
           (replace [BSL; COLON] [COLON]
             (replace [BSL; SEMI] [SEMI]
               (replace [BSL; COMMA] [COMMA]
                 (replace [BSL; BSL] [BSL] s))))))
  else c.
Definition cow_by_type (c : cow) (t : value_type) : cow := match t with Text => cow_unescape c | _ => c end.

(** [Parameter], [Property], [Component] and [Calendar] as in Parser.v. *)
Record zparam := mk_zparam { zp_key : cow; zp_val : option cow }.
Record zprop := mk_zprop { zr_name : cow; zr_val : cow; zr_params : list zparam }.
Inductive zcomp := mk_zcomp (zc_name : cow) (zc_props : list zprop) (zc_comps : list zcomp).
Definition zc_name (c : zcomp) := match c with mk_zcomp n _ _ => n end.
Definition zc_props (c : zcomp) := match c with mk_zcomp _ p _ => p end.
Definition zc_comps (c : zcomp) := match c with mk_zcomp _ _ c => c end.
Record zcal := mk_zcal { zcal_props : list zprop; zcal_comps : list zcomp }.

Section Parsers.
  Context {U : Unicode} {E : Type} {PE : PErr E}.

  (** The parsers of nom that give a part of the text: [take_while] etc.; [.map(ParseString::from)]. *)
  Definition borrowed (p : parser E str) : parser E cow :=
    fun i => match p i with IOk r a => IOk r (Borrowed i (length a)) | IErr e => IErr e | IFail e => IFail e | IFuel => IFuel end.

  (** [valid_key_sequence_cow], src/parser/utils.rs:38-46. *)
  Definition zkey : parser E cow := borrowed valid_key_sequence.
  (** src/parser/parameters.rs:144-148 and 169-174. *)
  Definition zparam_value : parser E cow :=
    alt3 (borrowed eof)
         (delimited (tag [DQ]) (borrowed (take_while1 KIsNot (fun c => negb (c =? DQ)%N))) (tag [DQ]))
         (borrowed (take_while1 KTakeTill1 (fun c => negb ((c =? SEMI)%N || (c =? COLON)%N)))).
  (** [remove_empty_string], [remove_empty_string_parsed], src/parser/parameters.rs:112-128. *)
  Definition zremove_empty (v : option cow) : option cow :=
    match v with Some c => match cow_str c with [] => None | _ => Some c end | None => None end.
  (** [pair_parameter], [base_parameter], [parameter], [parameters], src/parser/parameters.rs:130-180, 215-219. *)
  Definition zpair_parameter : parser E zparam :=
    pmap (fun '(k, v) => mk_zparam k v)
      (preceded (pair (tag [SEMI]) space0)
        (separated_pair zkey (tag [EQUALS]) (pmap zremove_empty (opt zparam_value)))).
  Definition zbase_parameter : parser E zparam :=
    pmap (fun '(k, v) => mk_zparam k v)
      (pair (preceded (pair (tag [SEMI]) space0) zkey)
            (pmap zremove_empty (opt (preceded (tag [EQUALS]) zparam_value)))).
  Definition zparameter_p : parser E zparam := alt2 zpair_parameter zbase_parameter.
  Definition zparameters : parser E (list zparam) := fun i => many0 (S (length i)) zparameter_p i.

  (** [determin_value_type], src/parser/properties.rs:360-367. *)
  Definition zvalue_type (name : cow) (ps : list zparam) : option value_type :=
    match match find (fun q => cow_is (zp_key q) (lit "VALUE")) ps with
          | Some q => match zp_val q with Some v => vt_from_str (cow_str v) | None => None end
          | None => None
          end with
    | Some t => Some t
    | None => by_name (cow_str name)
    end.
  (** src/parser/properties.rs:407-411. *)
  Definition zdecode (name : cow) (ps : list zparam) (v : cow) : cow :=
    match zvalue_type name ps with Some t => cow_by_type v t | None => v end.
  (** [property], src/parser/properties.rs:369-417. *)
  Definition zproperty_p : parser E zprop :=
    context "property"
      (cut
        (pmap (fun '(((name, ps), v), _) => mk_zprop name (zdecode name ps v) ps)
          (pair
            (alt2
              (separated_pair
                (pair (cut (context "property cannot be END or BEGIN"
                             (preceded multispace0 (borrowed property_key))))
                      zparameters)
                (context "property separator" (tag [COLON]))
                (context "property value"
                  (alt3 (borrowed (take_until [CR; LF])) (borrowed (take_until [LF])) (borrowed (take_while (fun _ => true))))))
              (context "no-value property"
                (pmap (fun k => ((k, []), Static [])) zkey)))
            (opt line_ending)))).

  Definition zchildren_comps (l : list (zcomp + zprop)) : list zcomp :=
    flat_map (fun x => match x with inl c => [c] | inr _ => [] end) l.
  Definition zchildren_props (l : list (zcomp + zprop)) : list zprop :=
    flat_map (fun x => match x with inl _ => [] | inr p => [p] end) l.
  (** [component], src/parser/components.rs:247-285; [tag(name.as_str())] at 260. *)
  Fixpoint zcomponent (fuel : nat) : parser E zcomp :=
    match fuel with
    | O => fun _ => IFuel
    | S f =>
        pbind (line (lit "BEGIN:") zkey) (fun name =>
        pbind (fun i =>
                 many_till (S (length i))
                   (cut (context "component"
                     (alt2 (line_separated (pmap inl (zcomponent f)))
                           (line_separated (pmap inr zproperty_p)))))
                   (line (lit "END:") (cut (context "mismatching end" (tag (cow_str name))))) i)
              (fun '(body, _) =>
        pbind (fun i => many0 (S (length i)) (tag [LF]) i) (fun _ =>
        pret (mk_zcomp name (zchildren_props body) (zchildren_comps body)))))
    end.
  Definition zcomponent_p : parser E zcomp := fun i => zcomponent (S (length i)) i.
  (** [components], src/parser/components.rs:515-519. *)
  Definition zcomponents_p : parser E (list zcomp) := fun i => many0 (S (length i)) (all_consuming zcomponent_p) i.
End Parsers.

(** The entry points of Parser.v: src/parser/mod.rs:59-99, src/parser/components.rs:240-245, src/parser/properties.rs:93-102,
    src/parser/parameters.rs:34-43. *)
Definition zcal_of_roots (cs : list zcomp) : zcal :=
  match cs with
  | root :: _ => if cow_is (zc_name root) (lit "VCALENDAR") then mk_zcal (zc_props root) (zc_comps root) else mk_zcal [] cs
  | [] => mk_zcal [] []
  end.
Definition zread_components {U : Unicode} (i : str) : result (list zcomp) verror := finish (zcomponents_p i).
Definition zread_calendar {U : Unicode} (i : str) : result zcal verror := rmap zcal_of_roots (finish (zcomponents_p i)).
Definition zread_component {U : Unicode} (i : str) : result zcomp verror := finish (zcomponent_p i).
Definition zread_property {U : Unicode} (i : str) : result zprop verror := finish (zproperty_p i).
Definition zread_parameter {U : Unicode} (i : str) : result zparam verror := finish (zparameter_p i).
