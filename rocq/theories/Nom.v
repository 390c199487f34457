(** The nom 7 combinators used by src/parser, over [&str] and an arbitrary error type.
    nom is not in /repo; its behaviour is part of the trusted base (DESIGN.md). *)
From Verif Require Import Str.

(** [nom::error::ErrorKind], the kinds that occur. *)
Inductive ekind :=
| KTag | KCrLf | KTakeTill1 | KIsNot | KTakeUntil | KEof | KAlt | KMany0 | KManyTill | KSatisfy.

(** [ParseError] + [ContextError]. *)
Class PErr (E : Type) := {
  from_kind : str -> ekind -> E;
  append_err : str -> ekind -> E -> E;
  add_context : str -> string -> E -> E }.

(** [IResult]; [IFuel] is the model's own out-of-budget answer (shown unreachable). *)
Inductive ires (E O : Type) :=
| IOk (rest : str) (o : O)
| IErr (e : E)          (* nom::Err::Error *)
| IFail (e : E)         (* nom::Err::Failure *)
| IFuel.
Arguments IOk {E O}. Arguments IErr {E O}. Arguments IFail {E O}. Arguments IFuel {E O}.

Definition parser (E O : Type) := str -> ires E O.

Section Combinators.
  Context {E : Type} {PE : PErr E}.

  Definition pbind {A B} (p : parser E A) (f : A -> parser E B) : parser E B :=
    fun i => match p i with
             | IOk r a => f a r
             | IErr e => IErr e
             | IFail e => IFail e
             | IFuel => IFuel
             end.
  Definition pret {A} (a : A) : parser E A := fun i => IOk i a.
  Definition pmap {A B} (f : A -> B) (p : parser E A) : parser E B :=
    pbind p (fun a => pret (f a)).

  Definition preceded {A B} (p : parser E A) (q : parser E B) : parser E B := pbind p (fun _ => q).
  Definition pair {A B} (p : parser E A) (q : parser E B) : parser E (A * B) :=
    pbind p (fun a => pbind q (fun b => pret (a, b))).
  Definition separated_pair {A B C} (p : parser E A) (s : parser E B) (q : parser E C)
    : parser E (A * C) :=
    pbind p (fun a => pbind s (fun _ => pbind q (fun c => pret (a, c)))).
  Definition delimited {A B C} (p : parser E A) (q : parser E B) (s : parser E C) : parser E B :=
    pbind p (fun _ => pbind q (fun b => pbind s (fun _ => pret b))).

  (** [alt] of two and of three alternatives: the last error, extended with [Alt]. *)
  Definition alt2 {A} (p q : parser E A) : parser E A :=
    fun i => match p i with
             | IErr _ => match q i with
                         | IErr e => IErr (append_err i KAlt e)
                         | r => r
                         end
             | r => r
             end.
  Definition alt3 {A} (p q s : parser E A) : parser E A :=
    fun i => match p i with
             | IErr _ => match q i with
                         | IErr _ => match s i with
                                     | IErr e => IErr (append_err i KAlt e)
                                     | r => r
                                     end
                         | r => r
                         end
             | r => r
             end.
  Definition opt {A} (p : parser E A) : parser E (option A) :=
    fun i => match p i with
             | IOk r a => IOk r (Some a)
             | IErr _ => IOk i None
             | IFail e => IFail e
             | IFuel => IFuel
             end.
  Definition cut {A} (p : parser E A) : parser E A :=
    fun i => match p i with IErr e => IFail e | r => r end.
  Definition context {A} (c : string) (p : parser E A) : parser E A :=
    fun i => match p i with
             | IErr e => IErr (add_context i c e)
             | IFail e => IFail (add_context i c e)
             | r => r
             end.
  (** [all_consuming]; [complete] is the identity here: no parser is streaming. *)
  Definition all_consuming {A} (p : parser E A) : parser E A :=
    fun i => match p i with
             | IOk [] a => IOk [] a
             | IOk r _ => IErr (from_kind r KEof)
             | r => r
             end.

  (** [many0], one unit of fuel per iteration. *)
  Fixpoint many0 {A} (fuel : nat) (p : parser E A) (i : str) : ires E (list A) :=
    match fuel with
    | O => IFuel
    | S f =>
        match p i with
        | IErr _ => IOk i []
        | IFail e => IFail e
        | IFuel => IFuel
        | IOk r a =>
            if length r =? length i then IErr (from_kind i KMany0)
            else match many0 f p r with
                 | IOk r' l => IOk r' (a :: l)
                 | IErr e => IErr e
                 | IFail e => IFail e
                 | IFuel => IFuel
                 end
        end
    end.

  (** [many_till(p, g)], one unit of fuel per iteration. *)
  Fixpoint many_till {A B} (fuel : nat) (p : parser E A) (g : parser E B) (i : str)
    : ires E (list A * B) :=
    match fuel with
    | O => IFuel
    | S f =>
        match g i with
        | IOk r b => IOk r ([], b)
        | IFail e => IFail e
        | IFuel => IFuel
        | IErr _ =>
            match p i with
            | IErr e => IErr (append_err i KManyTill e)
            | IFail e => IFail e
            | IFuel => IFuel
            | IOk r a =>
                if length r =? length i then IErr (from_kind r KManyTill)
                else match many_till f p g r with
                     | IOk r' (l, b) => IOk r' (a :: l, b)
                     | IErr e => IErr e
                     | IFail e => IFail e
                     | IFuel => IFuel
                     end
            end
        end
    end.

  Definition tag (t : str) : parser E str :=
    fun i => if starts_with t i then IOk (skipn (length t) i) t else IErr (from_kind i KTag).
  (** [tag_no_case] for an ASCII tag without [k] or [s] (no non-ASCII character lower-cases to
      one of its letters). *)
  Definition tag_no_case (t : str) : parser E str :=
    fun i => if starts_with (map lower_ascii t) (map lower_ascii i)
             then IOk (skipn (length t) i) (firstn (length t) i)
             else IErr (from_kind i KTag).
  Definition line_ending : parser E str :=
    fun i => if starts_with [LF] i then IOk (skipn 1 i) [LF]
             else if starts_with [CR; LF] i then IOk (skipn 2 i) [CR; LF]
             else IErr (from_kind i KCrLf).

  Fixpoint span (f : char -> bool) (s : str) : str * str :=
    match s with
    | [] => ([], [])
    | c :: r => if f c then let '(a, b) := span f r in (c :: a, b) else ([], s)
    end.
  Definition take_while (f : char -> bool) : parser E str :=
    fun i => let '(a, r) := span f i in IOk r a.
  (** [take_till1] and [is_not]: at least one character, up to the first match. *)
  Definition take_while1 (k : ekind) (f : char -> bool) : parser E str :=
    fun i => match span f i with
             | ([], _) => IErr (from_kind i k)
             | (a, r) => IOk r a
             end.
  Definition space0 : parser E str := take_while (fun c => (c =? SP)%N || (c =? TAB)%N).
  Definition multispace0 : parser E str :=
    take_while (fun c => (c =? SP)%N || (c =? TAB)%N || (c =? CR)%N || (c =? LF)%N).

  (** [take_until]: text before the first occurrence of [t]. *)
  Fixpoint find_sub (t s : str) : option (str * str) :=
    if starts_with t s then Some ([], s)
    else match s with
         | [] => None
         | c :: r => match find_sub t r with Some (a, b) => Some (c :: a, b) | None => None end
         end.
  Definition take_until (t : str) : parser E str :=
    fun i => match find_sub t i with
             | Some (a, r) => IOk r a
             | None => IErr (from_kind i KTakeUntil)
             end.
  Definition eof : parser E str :=
    fun i => match i with [] => IOk [] [] | _ => IErr (from_kind i KEof) end.
End Combinators.

(** [VerboseError<&str>]: the stack of (location, kind). *)
Inductive vkind := VNom (k : ekind) | VContext (c : string).
Definition verror := list (str * vkind).
Global Instance PErr_verbose : PErr verror := {|
  from_kind i k := [(i, VNom k)];
  append_err i k e := e ++ [(i, VNom k)];
  add_context i c e := e ++ [(i, VContext c)] |}.
(** [nom::error::Error<&str>]: location and kind of the innermost error only. *)
Global Instance PErr_simple : PErr (str * ekind) := {|
  from_kind i k := (i, k);
  append_err i k e := e;
  add_context i c e := e |}.
