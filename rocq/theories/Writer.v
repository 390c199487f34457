(** Writing into any [fmt::Write]: the single calls of [write_str], and what happens if one of them fails. *)
From Verif Require Import Str Fold ValueTypes Property Chrono DateTime Component Calendar Nom Parser.

(** How a writing ends: [Ok(())], [Err(fmt::Error)], a panic, or not at all. *)
Inductive fin := Done | Failed | Panicked | Endless.

Section Writer.
  Context {U : Unicode}.
  (** The writer: [write_str] changes its state and reports success ([true]) or an error.  It does not panic. *)
  Context {W : Type} (put : W -> str -> W * bool).

  (** A step: the state of the writer and the number of readings of the environment, before and after. *)
  Definition act := W * nat -> fin * (W * nat).
  Definition nothing : act := fun s => (Done, s).
  (** [a?; b]. *)
  Definition andthen (a b : act) : act :=
    fun s => match a s with (Done, s') => b s' | r => r end.
  Definition reading (b : act) : act := fun '(w, n) => b (w, S n).
  Definition write_str (x : str) : act := fun '(w, n) => let '(w', ok) := put w x in (if ok then Done else Failed, (w', n)).
  (** [core::fmt::write]: the literal pieces and the arguments, one call each, up to the first that fails. *)
  Definition write_fmt (xs : list str) : act := fold_right (fun x a => andthen (write_str x) a) nothing xs.
  (** The sequence of a [for] loop. *)
  Definition each {A} (f : A -> act) (l : list A) : act := fold_right (fun x a => andthen (f x) a) nothing l.

  (** [write_crlf!(out, "{}", fold_line(&line))?], src/properties.rs:191, src/parser/properties.rs:78: the argument is
      computed before anything is written. *)
  Definition folded_fmt_write (line : str) : act :=
    match fold_line line with
    | Ret s => write_fmt [s; crlf]
    | Panic => fun s => (Panicked, s)
    | NoFuel => fun s => (Endless, s)
    end.
  (** [Property::fmt_write], src/properties.rs:178-193. *)
  Definition prop_fmt_write (p : property) : act := folded_fmt_write (prop_line p).
  (** The lines with the time (src/components.rs:97-100) and with the identifier (:106-108). *)
  Definition stamp_fmt_write (e : env) : act :=
    fun '(w, n) => reading (write_fmt [lit "DTSTAMP:"; format_utc_date_time (now_at e n); crlf]) (w, n).
  Definition uid_fmt_write (e : env) : act :=
    fun '(w, n) => reading (write_fmt [lit "UID:"; fmt_uuid (uuid_at e n); crlf]) (w, n).
  (** [Component::fmt_write], src/components.rs:94-120. *)
  Fixpoint inner_fmt_write (e : env) (kind : str) (i : inner) {struct i} : act :=
    match i with
    | mk_inner ps ms cs =>
        andthen (write_fmt [lit "BEGIN:"; kind; crlf])                                       (* :95 *)
       (andthen (match map_get (lit "DTSTAMP") ps with Some _ => nothing | None => stamp_fmt_write e end)
       (andthen (each prop_fmt_write (map snd ps))                                           (* :102-104 *)
       (andthen (match map_get (lit "UID") ps with Some _ => nothing | None => uid_fmt_write e end)
       (andthen (each prop_fmt_write (concat (map snd ms)))                                  (* :110-112 *)
       (andthen ((fix go (cs : list (str * inner)) : act :=
                    match cs with                                                            (* :114-116 *)
                    | [] => nothing
                    | (k, c) :: r => andthen (inner_fmt_write e k c) (go r)
                    end) cs)
                (write_fmt [lit "END:"; kind; crlf]))))))                                    (* :118 *)
    end.
  (** [CalendarComponent::fmt_write], src/calendar/calendar_component.rs:60-67. *)
  Definition cc_fmt_write (e : env) (c : cal_component) : act := inner_fmt_write e (cc_kind c) (cc_inner c).
  (** [Calendar::fmt_write], src/calendar.rs:223-234, and [Display], 243-247 (a [Formatter] hands every call on). *)
  Definition cal_fmt_write (e : env) (c : calendar) : act :=
    andthen (write_fmt [lit "BEGIN:VCALENDAR" ++ crlf])
   (andthen (each prop_fmt_write (c_props c))
   (andthen (each (cc_fmt_write e) (c_comps c))
            (write_fmt [lit "END:VCALENDAR" ++ crlf]))).

  (** [parser::Property::fmt_write], src/parser/properties.rs:65-80. *)
  Definition pprop_fmt_write (p : pprop) : act := folded_fmt_write (pprop_line p).
  (** [LikeComponent::fmt_write], src/parser/components.rs:69-100. *)
  Fixpoint pcomp_fmt_write (e : env) (c : pcomp) {struct c} : act :=
    match c with
    | mk_pcomp name ps cs =>
        let has k := existsb (fun p => str_eqb (pr_name p) (lit k)) ps in
        andthen (write_fmt [lit "BEGIN:"; name; crlf])                                       (* :70 *)
       (andthen (if str_eqb (to_lowercase name) (lit "calendar") then                        (* :72-89 *)
                   andthen (if has "DTSTAMP"%string then nothing else stamp_fmt_write e)
                           (if has "UID"%string then nothing else uid_fmt_write e)
                 else nothing)
       (andthen (each pprop_fmt_write ps)                                                    (* :90-92 *)
       (andthen ((fix go (cs : list pcomp) : act :=
                    match cs with                                                            (* :94-96 *)
                    | [] => nothing
                    | c :: r => andthen (pcomp_fmt_write e c) (go r)
                    end) cs)
                (write_fmt [lit "END:"; name; crlf]))))                                      (* :98 *)
    end.
  (** [Display for parser::Calendar], src/parser/calendar.rs:22-41. *)
  Definition pcal_fmt_write (e : env) (c : pcal) : act :=
    pcomp_fmt_write e (mk_pcomp (lit "VCALENDAR") (pcal_props c) (pcal_comps c)).
End Writer.
