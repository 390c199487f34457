(** Documents: component trees written line by line. *)
From Verif Require Import Str Spec ValueTypes Property Chrono DateTime Component Calendar Nom Parser.

(** ** Lines *)

(** The characters of property, parameter and component names as the parser takes them:
    [. , / _ -] and alphanumeric characters. *)
Definition key_char {U : Unicode} (c : char) : Prop := In c [46; 44; 47; 95; 45]%N \/ is_alnum c = true.
Definition name_ok {U : Unicode} (k : str) : Prop := Forall key_char k.
Definition has_prefix (p s : str) : Prop := exists r, s = p ++ r.
(** Property names: not starting with END or BEGIN, and not one of these words in other case. *)
Definition prop_name_ok {U : Unicode} (k : str) : Prop :=
  name_ok k /\ ~ has_prefix (lit "END") k /\ ~ has_prefix (lit "BEGIN") k
  /\ map lower_ascii k <> lit "end" /\ map lower_ascii k <> lit "begin".

(** A parameter on the wire: [;K], [;K=], [;K=v] or [;K="v"]. *)
Inductive pform := FNone | FEmpty | FPlain (v : str) | FQuoted (v : str).
Record wparam := mk_wparam { wp_key : str; wp_form : pform }.
Definition wparam_text (q : wparam) : str :=
  SEMI :: wp_key q ++
  match wp_form q with
  | FNone => []
  | FEmpty => [EQUALS]
  | FPlain v => EQUALS :: v
  | FQuoted v => EQUALS :: DQ :: v ++ [DQ]
  end.
Definition wparam_ok {U : Unicode} (q : wparam) : Prop :=
  name_ok (wp_key q) /\
  match wp_form q with
  | FPlain v => v <> [] /\ ~ In SEMI v /\ ~ In COLON v /\ ~ has_prefix [DQ] v
  | FQuoted v => v <> [] /\ ~ In DQ v
  | _ => True
  end.
Definition wparam_value (q : wparam) : option str :=
  match wp_form q with FPlain v | FQuoted v => Some v | _ => None end.
Definition wparam_read (q : wparam) : pparam := mk_pparam (wp_key q) (wparam_value q).

(** A property line: name, parameters, a colon and the value; or a name alone. *)
Inductive wline := LValue (k : str) (qs : list wparam) (v : str) | LBare (k : str).
Definition wline_text (l : wline) : str :=
  match l with
  | LValue k qs v => k ++ concat (map wparam_text qs) ++ COLON :: v
  | LBare k => k
  end.
(** What a property line means: the value is unescaped if it is TEXT ([decode_value], see C08, C10). *)
Definition wline_read {U : Unicode} (l : wline) : pprop :=
  match l with
  | LValue k qs v => mk_pprop k (decode_value k (map wparam_read qs) v) (map wparam_read qs)
  | LBare k => mk_pprop k [] []
  end.

(** ** Line breaks *)

(** Two styles of documents.  Lines of a CR LF document end with CR LF and further line breaks of either
    kind; lines of an LF document with any number of LF. *)
Inductive style := CrLf | Lf.
Definition break (b : str) : Prop := b = [CR; LF] \/ b = [LF].
Inductive breaks : str -> Prop :=
| bk_nil : breaks []
| bk_cons : forall b s, break b -> breaks s -> breaks (b ++ s).
Definition line_end (y : style) (s : str) : Prop :=
  match y with
  | CrLf => exists b, s = [CR; LF] ++ b /\ breaks b
  | Lf => exists n, s = LF :: repeat LF n
  end.
Definition has_crlf (s : str) : Prop := exists a b, s = a ++ [CR; LF] ++ b.
(** The value of a line must not contain the line break of the document. *)
Definition wline_ok {U : Unicode} (y : style) (l : wline) : Prop :=
  match l with
  | LValue k qs v => prop_name_ok k /\ Forall wparam_ok qs
      /\ match y with CrLf => ~ has_crlf v | Lf => ~ In LF v end
  | LBare k => prop_name_ok k /\ k <> []
  end.

(** ** Trees *)

(** Properties and sub-components in any order. *)
Inductive wtree := W (name : str) (items : list (wline + wtree)).
Inductive either {A B} (P : A -> Prop) (Q : B -> Prop) : A + B -> Prop :=
| ei_l : forall a, P a -> either P Q (inl a)
| ei_r : forall b, Q b -> either P Q (inr b).
Inductive either2 {A B C} (P : A -> C -> Prop) (Q : B -> C -> Prop) : A + B -> C -> Prop :=
| e2_l : forall a c, P a c -> either2 P Q (inl a) c
| e2_r : forall b c, Q b c -> either2 P Q (inr b) c.
Inductive wtree_ok {U : Unicode} (y : style) : wtree -> Prop :=
| W_ok : forall n its, name_ok n ->
    Forall (either (wline_ok y) (wtree_ok y)) its ->
    wtree_ok y (W n its).
(** The meaning: properties and sub-components in order. *)
Fixpoint wtree_read {U : Unicode} (t : wtree) : pcomp :=
  match t with
  | W n its =>
      mk_pcomp n
        (flat_map (fun x => match x with inl l => [wline_read l] | inr _ => [] end) its)
        (flat_map (fun x => match x with inl _ => [] | inr t => [wtree_read t] end) its)
  end.
(** The text: the keywords in any case, every line with its line end. *)
Inductive wtree_text (y : style) : wtree -> str -> Prop :=
| W_text : forall n its kb ke eb ee ss,
    map lower_ascii kb = lit "begin:" -> map lower_ascii ke = lit "end:" ->
    line_end y eb -> line_end y ee ->
    Forall2 (either2 (fun l s => exists e, line_end y e /\ s = wline_text l ++ e) (wtree_text y)) its ss ->
    wtree_text y (W n its) (kb ++ n ++ eb ++ concat ss ++ ke ++ n ++ ee).

(** ** Rests and names *)

(** The end of a text. *)
Definition suffix (r i : str) : Prop := exists p, i = p ++ r.
(** All names of a parsed value are made of [key_char]s. *)
Definition param_keyed {U : Unicode} (q : pparam) : Prop := name_ok (pp_key q).
Definition prop_keyed {U : Unicode} (p : pprop) : Prop :=
  name_ok (pr_name p) /\ Forall param_keyed (pr_params p).
Inductive comp_keyed {U : Unicode} : pcomp -> Prop :=
| Comp_keyed : forall n ps cs, name_ok n -> Forall prop_keyed ps -> Forall comp_keyed cs ->
    comp_keyed (mk_pcomp n ps cs).

(** ** Accepted texts *)

(** A parameter as the parser takes it: [;], blanks, a name, and perhaps [=] and a value, which is quoted, or
    ends before [;] or [:], or is missing. *)
Definition blank (s : str) : Prop := Forall (fun c => c = SP \/ c = TAB) s.
Inductive value_form : option str -> str -> Prop :=
| vf_none : value_form None []
| vf_plain : forall v, v <> [] -> ~ In SEMI v -> ~ In COLON v -> value_form (Some v) v
| vf_quoted : forall v, v <> [] -> ~ In DQ v -> value_form (Some v) (DQ :: v ++ [DQ]).
Inductive param_taken {U : Unicode} : pparam -> str -> Prop :=
| pt_value : forall k o w v, blank w -> name_ok k -> value_form o v ->
    param_taken (mk_pparam k o) (SEMI :: w ++ k ++ EQUALS :: v)
| pt_name : forall k w, blank w -> name_ok k -> param_taken (mk_pparam k None) (SEMI :: w ++ k).
(** Where a value ends: before the first CR LF of all that follows; without one, before the first LF; without
    one, at the end. *)
Definition value_cut (v rest : str) : Prop :=
  has_prefix [CR; LF] rest /\ ~ has_crlf v
  \/ has_prefix [LF] rest /\ ~ In LF v /\ ~ has_crlf (v ++ rest)
  \/ rest = [] /\ ~ In LF v.
(** A property: white space, a name, parameters, [:] and the value; or a name alone; and perhaps a line break.
    [rest] is what follows in the document. *)
Inductive prop_taken {U : Unicode} : pprop -> str -> str -> Prop :=
| pt_line : forall w k qs ts v e rest,
    Forall (fun c => In c [SP; TAB; CR; LF]) w -> name_ok k -> Forall2 param_taken qs ts ->
    value_cut v (e ++ rest) -> e = [] \/ break e ->
    prop_taken (mk_pprop k (decode_value k qs v) qs) (w ++ k ++ concat ts ++ COLON :: v ++ e) rest
| pt_bare : forall k e rest, name_ok k -> e = [] \/ break e -> prop_taken (mk_pprop k [] []) (k ++ e) rest.
(** A component: BEGIN with its name, properties and components in any order, END with the same name, with
    line breaks anywhere between. *)
Inductive comp_taken {U : Unicode} : pcomp -> str -> str -> Prop :=
| ct_comp : forall n ps cs b1 b2 b3 b4 kb ke s rest,
    breaks b1 -> breaks b2 -> breaks b3 -> breaks b4 ->
    map lower_ascii kb = lit "begin:" -> map lower_ascii ke = lit "end:" -> name_ok n ->
    body_taken ps cs s (b3 ++ ke ++ n ++ b4 ++ rest) ->
    comp_taken (mk_pcomp n ps cs) (b1 ++ kb ++ n ++ b2 ++ s ++ b3 ++ ke ++ n ++ b4) rest
with body_taken {U : Unicode} : list pprop -> list pcomp -> str -> str -> Prop :=
| bt_nil : forall rest, body_taken [] [] [] rest
| bt_prop : forall p ps cs b1 b2 s t rest, breaks b1 -> breaks b2 ->
    prop_taken p s (b2 ++ t ++ rest) -> body_taken ps cs t rest ->
    body_taken (p :: ps) cs (b1 ++ s ++ b2 ++ t) rest
| bt_comp : forall c ps cs b1 b2 s t rest, breaks b1 -> breaks b2 ->
    comp_taken c s (b2 ++ t ++ rest) -> body_taken ps cs t rest ->
    body_taken ps (c :: cs) (b1 ++ s ++ b2 ++ t) rest.

(** ** Broken texts *)

(** The beginning of a component: its BEGIN line, then complete lines and sub-components. *)
Inductive open_text {U : Unicode} (y : style) : str -> str -> Prop :=
| Open_text : forall n its kb eb ss,
    name_ok n -> map lower_ascii kb = lit "begin:" -> line_end y eb ->
    Forall (either (wline_ok y) (wtree_ok y)) its ->
    Forall2 (either2 (fun l s => exists e, line_end y e /\ s = wline_text l ++ e) (wtree_text y)) its ss ->
    open_text y n (kb ++ n ++ eb ++ concat ss).
(** A text that goes well until an END line, at any depth, whose name does not begin with the name of the
    innermost open component. *)
Inductive misnested {U : Unicode} (y : style) : str -> Prop :=
| mis_here : forall n s ke m rest, open_text y n s -> map lower_ascii ke = lit "end:" -> name_ok m ->
    ~ has_prefix n m -> (forall c r, rest = c :: r -> ~ key_char c) -> misnested y (s ++ ke ++ m ++ rest)
| mis_inside : forall n s t, open_text y n s -> misnested y t -> misnested y (s ++ t).
(** [n] components opened one in the other, never closed. *)
Definition nested_begins (n : nat) : str := concat (repeat (lit "BEGIN:A" ++ [CR; LF]) n).

(** ** Answers *)

Definition answered {A E} (r : result A E) : Prop := (exists a, r = Ok a) \/ (exists e, r = Err e).
(** The text continues with something other than a line break. *)
Definition no_break_next (s : str) : Prop := ~ has_prefix [LF] s /\ ~ has_prefix [CR; LF] s.
