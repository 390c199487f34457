(** The work of the parser: the parsers of Parser.v with a count of the calls of [component]
    (src/parser/components.rs:247-285).  The other parsers never call [component] and count nothing. *)
From Verif Require Import Str Property Chrono DateTime Component Calendar Nom Parser.

(** A parser with the number of calls it makes. *)
Definition cparser (E A : Type) := str -> nat * ires E A.

Section Counting.
  Context {U : Unicode} {E : Type} {PE : PErr E}.

  Definition free {A} (p : parser E A) : cparser E A := fun i => (0, p i).
  Definition tick {A} (p : cparser E A) : cparser E A := fun i => (S (fst (p i)), snd (p i)).
  (** [pbind], [alt2], [cut], [context], [all_consuming], [many0] and [many_till] of Nom.v, counting. *)
  Definition cbind {A B} (p : cparser E A) (f : A -> cparser E B) : cparser E B :=
    fun i => let (n, x) := p i in
             match x with
             | IOk r a => (n + fst (f a r), snd (f a r))
             | IErr e => (n, IErr e)
             | IFail e => (n, IFail e)
             | IFuel => (n, IFuel)
             end.
  Definition calt2 {A} (p q : cparser E A) : cparser E A :=
    fun i => let (n, x) := p i in
             match x with
             | IErr _ => let (m, y) := q i in
                         (n + m, match y with
                                 | IErr e => IErr (append_err i KAlt e)
                                 | r => r
                                 end)
             | r => (n, r)
             end.
  Definition ccut {A} (p : cparser E A) : cparser E A :=
    fun i => let (n, x) := p i in (n, match x with IErr e => IFail e | r => r end).
  Definition ccontext {A} (c : string) (p : cparser E A) : cparser E A :=
    fun i => let (n, x) := p i in
             (n, match x with
                 | IErr e => IErr (add_context i c e)
                 | IFail e => IFail (add_context i c e)
                 | r => r
                 end).
  Definition call_consuming {A} (p : cparser E A) : cparser E A :=
    fun i => let (n, x) := p i in
             (n, match x with
                 | IOk [] a => IOk [] a
                 | IOk r _ => IErr (from_kind r KEof)
                 | r => r
                 end).
  Fixpoint cmany0 {A} (fuel : nat) (p : cparser E A) (i : str) : nat * ires E (list A) :=
    match fuel with
    | O => (0, IFuel)
    | S f =>
        let (n, x) := p i in
        match x with
        | IErr _ => (n, IOk i [])
        | IFail e => (n, IFail e)
        | IFuel => (n, IFuel)
        | IOk r a =>
            if length r =? length i then (n, IErr (from_kind i KMany0))
            else let (m, y) := cmany0 f p r in
                 (n + m, match y with
                         | IOk r' l => IOk r' (a :: l)
                         | IErr e => IErr e
                         | IFail e => IFail e
                         | IFuel => IFuel
                         end)
        end
    end.
  (** The second parser, which recognises the end, counts nothing. *)
  Fixpoint cmany_till {A B} (fuel : nat) (p : cparser E A) (g : parser E B) (i : str)
    : nat * ires E (list A * B) :=
    match fuel with
    | O => (0, IFuel)
    | S f =>
        match g i with
        | IOk r b => (0, IOk r ([], b))
        | IFail e => (0, IFail e)
        | IFuel => (0, IFuel)
        | IErr _ =>
            let (n, x) := p i in
            match x with
            | IErr e => (n, IErr (append_err i KManyTill e))
            | IFail e => (n, IFail e)
            | IFuel => (n, IFuel)
            | IOk r a =>
                if length r =? length i then (n, IErr (from_kind r KManyTill))
                else let (m, y) := cmany_till f p g r in
                     (n + m, match y with
                             | IOk r' (l, b) => IOk r' (a :: l, b)
                             | IErr e => IErr e
                             | IFail e => IFail e
                             | IFuel => IFuel
                             end)
            end
        end
    end.
  Definition cmap {A B} (f : A -> B) (p : cparser E A) : cparser E B := cbind p (fun a => free (pret (f a))).
  (** [line_separated], src/parser/utils.rs:55-59. *)
  Definition cline_separated {A} (p : cparser E A) : cparser E A :=
    cbind (free (fun i => many0 (S (length i)) line_ending i)) (fun _ =>
    cbind p (fun b =>
    cbind (free (fun i => many0 (S (length i)) line_ending i)) (fun _ => free (pret b)))).

  (** [component], src/parser/components.rs:247-285: every call counts one. *)
  Fixpoint ccomponent (fuel : nat) : cparser E pcomp :=
    match fuel with
    | O => tick (free (fun _ => IFuel))
    | S f => tick
        (cbind (free (line (lit "BEGIN:") valid_key_sequence)) (fun name =>
         cbind (fun i =>
                  cmany_till (S (length i))
                    (ccut (ccontext "component"
                      (calt2 (cline_separated (cmap inl (ccomponent f)))
                             (cline_separated (free (pmap inr property_p))))))
                    (line (lit "END:") (cut (context "mismatching end" (tag name)))) i)
               (fun '(body, _) =>
         cbind (free (fun i => many0 (S (length i)) (tag [LF]) i)) (fun _ =>
         free (pret (mk_pcomp name (children_props body) (children_comps body)))))))
    end.
  Definition ccomponent_p : cparser E pcomp := fun i => ccomponent (S (length i)) i.
  (** [components], src/parser/components.rs:515-519. *)
  Definition ccomponents_p : cparser E (list pcomp) :=
    fun i => cmany0 (S (length i)) (call_consuming ccomponent_p) i.
End Counting.

(** The calls of [component] made by [read_calendar] (and [read_components]) on a text. *)
Definition calls_of {U : Unicode} (i : str) : nat := fst (ccomponents_p (E := verror) i).
(** What [read_calendar], src/parser/mod.rs:62-80, answers by the counting parsers. *)
Definition cread_calendar {U : Unicode} (i : str) : result pcal verror :=
  rmap pcal_of_roots (finish (snd (ccomponents_p i))).
