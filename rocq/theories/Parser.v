(** src/parser/*.rs *)
From Verif Require Import Str Fold Text ValueTypes Property Chrono DateTime Component Calendar Nom.

(** [parser::Parameter], src/parser/parameters.rs:20-23. *)
Record pparam := mk_pparam { pp_key : str; pp_val : option str }.
(** [parser::Property], src/parser/properties.rs:48-52. *)
Record pprop := mk_pprop { pr_name : str; pr_val : str; pr_params : list pparam }.
(** [parser::Component], src/parser/components.rs:38-42. *)
Inductive pcomp := mk_pcomp (pc_name : str) (pc_props : list pprop) (pc_comps : list pcomp).
Definition pc_name (c : pcomp) := match c with mk_pcomp n _ _ => n end.
Definition pc_props (c : pcomp) := match c with mk_pcomp _ p _ => p end.
Definition pc_comps (c : pcomp) := match c with mk_pcomp _ _ c => c end.
(** [parser::Calendar], src/parser/calendar.rs:9-12. *)
Record pcal := mk_pcal { pcal_props : list pprop; pcal_comps : list pcomp }.

Section Parsers.
  Context {U : Unicode} {E : Type} {PE : PErr E}.

  (** The character class at src/parser/utils.rs:33 and 42. *)
  Definition is_key_char (c : char) : bool :=
    (c =? 46)%N || (c =? 44)%N || (c =? 47)%N || (c =? 95)%N || (c =? 45)%N || is_alnum c.

  (** [valid_key_sequence] and [valid_key_sequence_cow], src/parser/utils.rs:29-46. *)
  Definition valid_key_sequence : parser E str := take_while is_key_char.

  (** [property_key], src/parser/utils.rs:16-27.  [input.get(0..=2) == Some("END")] holds
      exactly when the input starts with [END]. *)
  Definition property_key : parser E str :=
    fun i => if starts_with (lit "END") i || starts_with (lit "BEGIN") i
             then IErr (from_kind i KSatisfy)
             else valid_key_sequence i.

  (** [line_separated], src/parser/utils.rs:55-59. *)
  Definition line_separated {A} (p : parser E A) : parser E A :=
    delimited (fun i => many0 (S (length i)) line_ending i) p
              (fun i => many0 (S (length i)) line_ending i).
  (** [line], src/parser/utils.rs:48-53. *)
  Definition line {A} (prefix : str) (p : parser E A) : parser E A :=
    line_separated (preceded (tag_no_case prefix) p).

  (** The value alternatives shared by src/parser/parameters.rs:144-148 and 169-173. *)
  Definition param_value : parser E str :=
    alt3 eof
         (delimited (tag [DQ]) (take_while1 KIsNot (fun c => negb (c =? DQ)%N)) (tag [DQ]))
         (take_while1 KTakeTill1 (fun c => negb ((c =? SEMI)%N || (c =? COLON)%N))).

  (** [remove_empty_string], src/parser/parameters.rs:112-128. *)
  Definition remove_empty (v : option str) : option str :=
    match v with Some [] => None | v => v end.

  (** [pair_parameter], src/parser/parameters.rs:136-157. *)
  Definition pair_parameter : parser E pparam :=
    pmap (fun '(k, v) => mk_pparam k v)
      (preceded (pair (tag [SEMI]) space0)
        (separated_pair valid_key_sequence (tag [EQUALS])
          (pmap remove_empty (opt param_value)))).

  (** [base_parameter], src/parser/parameters.rs:159-180. *)
  Definition base_parameter : parser E pparam :=
    pmap (fun '(k, v) => mk_pparam k v)
      (pair (preceded (pair (tag [SEMI]) space0) valid_key_sequence)
            (pmap remove_empty (opt (preceded (tag [EQUALS]) param_value)))).

  (** [parameter], src/parser/parameters.rs:130-134, and [parameters], 215-219. *)
  Definition parameter_p : parser E pparam := alt2 pair_parameter base_parameter.
  Definition parameters : parser E (list pparam) :=
    fun i => many0 (S (length i)) parameter_p i.

  (** [determin_value_type], src/parser/properties.rs:360-367. *)
  Definition determin_value_type (name : str) (ps : list pparam) : option value_type :=
    match match find (fun q => str_eqb (pp_key q) (lit "VALUE")) ps with
          | Some q => match pp_val q with Some v => vt_from_str v | None => None end
          | None => None
          end with
    | Some t => Some t
    | None => by_name name
    end.

  (** [unescape_by_value_type], src/parser/parsed_string.rs:31-36, as used at
      src/parser/properties.rs:407-411. *)
  Definition decode_value (name : str) (ps : list pparam) (v : str) : str :=
    match determin_value_type name ps with
    | Some Text => unescape_text v
    | _ => v
    end.

  (** [property], src/parser/properties.rs:369-417. *)
  Definition property_p : parser E pprop :=
    context "property"
      (cut
        (pmap (fun '(((name, ps), v), _) => mk_pprop name (decode_value name ps v) ps)
          (pair
            (alt2
              (separated_pair
                (pair (cut (context "property cannot be END or BEGIN"
                             (preceded multispace0 property_key)))
                      parameters)
                (context "property separator" (tag [COLON]))
                (context "property value"
                  (alt3 (take_until [CR; LF]) (take_until [LF]) (take_while (fun _ => true)))))
              (context "no-value property"
                (pmap (fun k => ((k, []), [])) valid_key_sequence)))
            (opt line_ending)))).

  (** [ComponentChild], src/parser/components.rs:235-238. *)
  Definition child := (pcomp + pprop)%type.
  Definition children_comps (l : list child) : list pcomp :=
    flat_map (fun x => match x with inl c => [c] | inr _ => [] end) l.
  Definition children_props (l : list child) : list pprop :=
    flat_map (fun x => match x with inl _ => [] | inr p => [p] end) l.

  (** [component], src/parser/components.rs:247-285; the fuel bounds the nesting depth. *)
  Fixpoint component (fuel : nat) : parser E pcomp :=
    match fuel with
    | O => fun _ => IFuel
    | S f =>
        pbind (line (lit "BEGIN:") valid_key_sequence) (fun name =>            (* :250 *)
        pbind (fun i =>
                 many_till (S (length i))                                      (* :252-261 *)
                   (cut (context "component"
                     (alt2 (line_separated (pmap inl (component f)))
                           (line_separated (pmap inr property_p)))))
                   (line (lit "END:") (cut (context "mismatching end" (tag name)))) i)
              (fun '(body, _) =>
        pbind (fun i => many0 (S (length i)) (tag [LF]) i) (fun _ =>           (* :275 *)
        pret (mk_pcomp name (children_props body) (children_comps body)))))    (* :262-284 *)
    end.

  (** [component] with enough fuel for any input. *)
  Definition component_p : parser E pcomp := fun i => component (S (length i)) i.

  (** [components], src/parser/components.rs:515-519. *)
  Definition components_p : parser E (list pcomp) :=
    fun i => many0 (S (length i)) (all_consuming component_p) i.
End Parsers.

(** The result of [Finish::finish]. *)
Inductive result (A E : Type) := Ok (a : A) | Err (e : E) | OutOfFuel.
Arguments Ok {A E}. Arguments Err {A E}. Arguments OutOfFuel {A E}.
Definition finish {E A} (r : ires E A) : result A E :=
  match r with
  | IOk _ a => Ok a
  | IErr e | IFail e => Err e
  | IFuel => OutOfFuel
  end.
Definition rmap {A B E} (f : A -> B) (r : result A E) : result B E :=
  match r with Ok a => Ok (f a) | Err e => Err e | OutOfFuel => OutOfFuel end.

(** In the following, the [String] of the Rust error is replaced by the [VerboseError] it is
    rendered from (the messages themselves: ErrorText.v). *)

(** [read_calendar_simple], src/parser/mod.rs:50-52. *)
Definition read_calendar_simple {U : Unicode} (i : str) : result (list pcomp) (str * ekind) :=
  finish (components_p i).
(** [read_components], src/parser/mod.rs:94-99. *)
Definition read_components {U : Unicode} (i : str) : result (list pcomp) verror :=
  finish (components_p i).
(** The closure in [read_calendar], src/parser/mod.rs:62-80 ([swap_remove(0)] drops the other roots). *)
Definition pcal_of_roots (cs : list pcomp) : pcal :=
  match cs with
  | root :: _ => if str_eqb (pc_name root) (lit "VCALENDAR")
                 then mk_pcal (pc_props root) (pc_comps root)
                 else mk_pcal [] cs
  | [] => mk_pcal [] []
  end.
(** [read_calendar], src/parser/mod.rs:59-82. *)
Definition read_calendar {U : Unicode} (i : str) : result pcal verror :=
  rmap pcal_of_roots (finish (components_p i)).
(** [read_component], src/parser/components.rs:240-245 (also [TryFrom<&str>], 117-126). *)
Definition read_component {U : Unicode} (i : str) : result pcomp verror :=
  finish (component_p i).
(** [TryFrom<&str> for parser::Property], src/parser/properties.rs:93-102. *)
Definition read_property {U : Unicode} (i : str) : result pprop verror := finish (property_p i).
(** [TryFrom<&str> for parser::Parameter], src/parser/parameters.rs:34-43. *)
Definition read_parameter {U : Unicode} (i : str) : result pparam verror := finish (parameter_p i).

(** [MULTIS], src/parser/properties.rs:29-43, and [is_multi_property], 82-84. *)
Definition MULTIS : list string :=
  ["ATTACH"; "ATTENDEE"; "CATEGORIES"; "COMMENT"; "CONTACT"; "EXDATE"; "FREEBUSY"; "IANA-PROP";
   "RDATE"; "RELATED"; "RESOURCES"; "RSTATUS"; "X-PROP"]%string.
Definition is_multi_name (k : str) : bool := existsb (fun m => str_eqb k (lit m)) MULTIS.
Definition is_multi (p : pprop) : bool := is_multi_name (pr_name p).

(** [From<parser::Parameter> for Parameter], src/parser/parameters.rs:45-52. *)
Definition conv_param (q : pparam) : parameter :=
  (pp_key q, match pp_val q with Some v => v | None => [] end).
(** [From<parser::Property> for Property], src/parser/properties.rs:104-116; collecting into a
    [HashMap] inserts from left to right. *)
Definition conv_prop (p : pprop) : property :=
  mk_property (pr_name p) (pr_val p)
    (fold_left (fun m q => hm_insert (fst q) (snd q) m) (map conv_param (pr_params p)) []).
(** [FromStr for Property], src/parser/properties.rs:118-124. *)
Definition property_from_str {U : Unicode} (s : str) : result property verror :=
  rmap conv_prop (read_property s).

(** [From<parser::Component> for InnerComponent], src/parser/components.rs:134-157, and for
    [Other], 128-132. *)
Fixpoint conv_inner (c : pcomp) : inner :=
  match c with
  | mk_pcomp _ ps cs =>
      fold_left insert_multi (map conv_prop (filter is_multi ps))
        (mk_inner
           (fold_left (fun m p => bt_insert (pr_name p) (conv_prop p) m)
                      (filter (fun p => negb (is_multi p)) ps) [])
           []
           (map (fun c => (pc_name c, conv_inner c)) cs))
  end.
(** [From<parser::Component> for CalendarComponent], src/parser/components.rs:159-169. *)
Definition conv_cc (c : pcomp) : cal_component :=
  if str_eqb (pc_name c) (lit "VEVENT") then CEvent (conv_inner c)
  else if str_eqb (pc_name c) (lit "VTODO") then CTodo (conv_inner c)
  else if str_eqb (pc_name c) (lit "VVENUE") then CVenue (conv_inner c)
  else COther (pc_name c, conv_inner c).
(** [From<parser::Calendar> for Calendar], src/parser/calendar.rs:43-50. *)
Definition conv_cal (c : pcal) : calendar :=
  mk_calendar (map conv_prop (pcal_props c)) (map conv_cc (pcal_comps c)).
(** [From<Vec<parser::Component>> for Calendar], src/parser/calendar.rs:72-92. *)
Definition conv_roots (cs : list pcomp) : calendar :=
  cal_from_iter
    (map conv_cc
      (match cs with
       | root :: _ => if str_eqb (pc_name root) (lit "VCALENDAR") then pc_comps root else cs
       | [] => cs
       end)).

(** [FromStr for Calendar], src/parser/calendar.rs:94-101. *)
Definition calendar_from_str {U : Unicode} (s : str) : result calendar verror :=
  rmap conv_cal (read_calendar (unfold s)).
(** [FromStr for CalendarComponent], src/parser/components.rs:171-178. *)
Definition cc_from_str {U : Unicode} (s : str) : result cal_component verror :=
  rmap conv_cc (read_component (unfold s)).

(** [Component::find_prop], src/parser/components.rs:56-60. *)
Definition find_prop (c : pcomp) (name : str) : option pprop :=
  find (fun p => str_eqb (pr_name p) name) (pc_props c).

(** [TryFrom<&parser::Property> for DatePerhapsTime], src/components/date_time.rs:367-400
    ([None] stands for the error). *)
Definition dpt_try_from (p : pprop) : option dpt :=
  match parse_dt_z (pr_val p) with
  | Some d => Some (DT (Utc d))
  | None =>
      match parse_date (pr_val p) with
      | Some d => Some (DDate d)
      | None =>
          match parse_dt (pr_val p) with
          | Some d =>
              match find (fun q => str_eqb (pp_key q) (lit "TZID")) (pr_params p) with
              | Some q => match pp_val q with
                          | Some tz => Some (DT (WithTimezone d tz))
                          | None => None
                          end
              | None => Some (DT (Floating d))
              end
          | None => None
          end
      end
  end.

(** Zero-copy serializer: [parser::Property::fmt_write], src/parser/properties.rs:65-80. *)
Definition pprop_line (p : pprop) : str :=
  pr_name p
  ++ concat (map (fun q => match pp_val q with
                           | Some v => SEMI :: pp_key q ++ EQUALS :: v
                           | None => SEMI :: pp_key q
                           end) (pr_params p))
  ++ COLON :: pr_val p.
Definition pprop_write (p : pprop) : outcome str := write_folded (pprop_line p).
Fixpoint pprops_write (ps : list pprop) : outcome str :=
  match ps with
  | [] => Ret []
  | p :: r => obind (pprop_write p) (fun s => obind (pprops_write r) (fun t => Ret (s ++ t)))
  end.

(** The DTSTAMP/UID lines of [LikeComponent::fmt_write], src/parser/components.rs:72-89: only for
    a component whose lower-cased name is [calendar]. *)
Definition like_extra {U : Unicode} (e : env) (name : str) (ps : list pprop) (n : nat) : str * nat :=
  if str_eqb (to_lowercase name) (lit "calendar") then
    let has k := existsb (fun p => str_eqb (pr_name p) (lit k)) ps in
    let '(a, n1) := if has "DTSTAMP"%string then ([], n)
                    else (lit "DTSTAMP:" ++ format_utc_date_time (now_at e n) ++ crlf, S n) in
    let '(b, n2) := if has "UID"%string then ([], n1)
                    else (lit "UID:" ++ fmt_uuid (uuid_at e n1) ++ crlf, S n1) in
    (a ++ b, n2)
  else ([], n).

(** [LikeComponent::fmt_write], src/parser/components.rs:69-100, for a component. *)
Fixpoint pcomp_write {U : Unicode} (e : env) (c : pcomp) (n : nat) {struct c} : outcome (str * nat) :=
  match c with
  | mk_pcomp name ps cs =>
      let '(x, n1) := like_extra e name ps n in
      obind (pprops_write ps) (fun pt =>
      obind ((fix go (cs : list pcomp) (n : nat) : outcome (str * nat) :=
                match cs with
                | [] => Ret ([], n)
                | c :: r => obind (pcomp_write e c n) (fun '(s, n') =>
                            obind (go r n') (fun '(t, n'') => Ret (s ++ t, n'')))
                end) cs n1) (fun '(ct, n2) =>
      Ret (lit "BEGIN:" ++ name ++ crlf ++ x ++ pt ++ ct ++ lit "END:" ++ name ++ crlf, n2)))
  end.
(** [Display for parser::Calendar], src/parser/calendar.rs:22-41. *)
Definition pcal_write {U : Unicode} (e : env) (c : pcal) : outcome str :=
  obind (pcomp_write e (mk_pcomp (lit "VCALENDAR") (pcal_props c) (pcal_comps c)) 0)
        (fun '(s, _) => Ret s).
