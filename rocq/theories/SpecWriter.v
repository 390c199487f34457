(** Writing line after line into a writer that can fail. *)
From Verif Require Import Str Spec ValueTypes Property Chrono DateTime Component Calendar Nom Parser Writer
  SpecBuild SpecDate SpecTree SpecDoc SpecText SpecFold SpecFail.

(** ** The lines *)

(** A line is written as it is, with a reading of the clock or the random source before it or not, or it is folded. *)
Inductive wline := Plain (l : str) | Generated (l : str) | Long (l : str).

(** The lines of a component, with the number of readings before and after. *)
Inductive lines_of {U : Unicode} (e : env) : str -> inner -> nat -> list wline -> nat -> Prop :=
| Lines_of : forall k i n n1 n2 n3 stamp ps pl u gs gl sub,
    match map_get (lit "DTSTAMP") (i_props i) with
    | Some _ => stamp = [] /\ n1 = n
    | None => stamp = [Generated (lit "DTSTAMP:" ++ format_utc_date_time (now_at e n))] /\ n1 = S n
    end ->
    ascending (map p_key ps) -> (forall p, In p ps <-> map_get (p_key p) (i_props i) = Some p) ->
    Forall2 line_written ps pl ->
    match map_get (lit "UID") (i_props i) with
    | Some _ => u = [] /\ n2 = n1
    | None => u = [Generated (lit "UID:" ++ fmt_uuid (uuid_at e n1))] /\ n2 = S n1
    end ->
    ascending (map fst gs) -> (forall key g, In (key, g) gs <-> map_get key (i_multi i) = Some g) ->
    Forall2 line_written (flat_map snd gs) gl ->
    subs_lines e (i_comps i) n2 sub n3 ->
    lines_of e k i n
      (Plain (lit "BEGIN:" ++ k) :: stamp ++ map Long pl ++ u ++ map Long gl ++ sub ++ [Plain (lit "END:" ++ k)]) n3
with subs_lines {U : Unicode} (e : env) : list (str * inner) -> nat -> list wline -> nat -> Prop :=
| sl_nil : forall n, subs_lines e [] n [] n
| sl_cons : forall k i r n a n1 b n2, lines_of e k i n a n1 -> subs_lines e r n1 b n2 ->
    subs_lines e ((k, i) :: r) n (a ++ b) n2.
Definition cal_lines {U : Unicode} (e : env) (c : calendar) (ls : list wline) : Prop :=
  exists pl sub n, Forall2 line_written (c_props c) pl
    /\ subs_lines e (map (fun x => (cc_kind x, cc_inner x)) (c_comps c)) 0 sub n
    /\ ls = Plain (lit "BEGIN:VCALENDAR") :: map Long pl ++ sub ++ [Plain (lit "END:VCALENDAR")].
(** Of a parsed component: only one with a name that is "calendar" in lower case gets generated lines. *)
Inductive plines_of {U : Unicode} (e : env) : pcomp -> nat -> list wline -> nat -> Prop :=
| Plines_of : forall k ps cs n n1 n2 n3 stamp u pl sub,
    (to_lowercase k = lit "calendar" /\ ~ names_prop (lit "DTSTAMP") ps
       /\ stamp = [Generated (lit "DTSTAMP:" ++ format_utc_date_time (now_at e n))] /\ n1 = S n
     \/ ~ (to_lowercase k = lit "calendar" /\ ~ names_prop (lit "DTSTAMP") ps) /\ stamp = [] /\ n1 = n) ->
    (to_lowercase k = lit "calendar" /\ ~ names_prop (lit "UID") ps
       /\ u = [Generated (lit "UID:" ++ fmt_uuid (uuid_at e n1))] /\ n2 = S n1
     \/ ~ (to_lowercase k = lit "calendar" /\ ~ names_prop (lit "UID") ps) /\ u = [] /\ n2 = n1) ->
    Forall2 pline_written ps pl ->
    psubs_lines e cs n2 sub n3 ->
    plines_of e (mk_pcomp k ps cs) n
      (Plain (lit "BEGIN:" ++ k) :: stamp ++ u ++ map Long pl ++ sub ++ [Plain (lit "END:" ++ k)]) n3
with psubs_lines {U : Unicode} (e : env) : list pcomp -> nat -> list wline -> nat -> Prop :=
| psl_nil : forall n, psubs_lines e [] n [] n
| psl_cons : forall c r n a n1 b n2, plines_of e c n a n1 -> psubs_lines e r n1 b n2 -> psubs_lines e (c :: r) n (a ++ b) n2.

(** ** The calls of [write_str] *)

(** What is written of a line, without and with its end; how many readings it takes. *)
Inductive shown : wline -> str -> Prop :=
| sh_plain : forall l, shown (Plain l) (l ++ [CR; LF])
| sh_generated : forall l, shown (Generated l) (l ++ [CR; LF])
| sh_long : forall l s, cut_line l s -> shown (Long l) s.
Definition readings (x : wline) : nat := match x with Generated _ => 1 | _ => 0 end.
(** A line together with the texts with which [write_str] is called for it. *)
Definition split_up (x : wline * list str) : Prop := forall s, shown (fst x) s -> concat (snd x) = s.

(** The calls [xs] are made in the state [w], up to the first that fails: the state afterwards, and whether all went well. *)
Inductive takes {W} (put : W -> str -> W * bool) : W -> list str -> W -> bool -> Prop :=
| tk_nil : forall w, takes put w [] w true
| tk_cons : forall w x w1 r w2 ok, put w x = (w1, true) -> takes put w1 r w2 ok -> takes put w (x :: r) w2 ok
| tk_fail : forall w x w1 r, put w x = (w1, false) -> takes put w (x :: r) w1 false.
(** The lines are written one after the other, up to the first call that fails or the first line that cannot be folded. *)
Inductive sent {W} (put : W -> str -> W * bool) : list (wline * list str) -> W -> nat -> fin -> W -> nat -> Prop :=
| st_done : forall w n, sent put [] w n Done w n
| st_line : forall x xs r w n w1 f w2 n2, (exists s, shown x s) -> takes put w xs w1 true ->
    sent put r w1 (n + readings x) f w2 n2 -> sent put ((x, xs) :: r) w n f w2 n2
| st_failed : forall x xs r w n w1, (exists s, shown x s) -> takes put w xs w1 false ->
    sent put ((x, xs) :: r) w n Failed w1 (n + readings x)
| st_panic : forall l xs r w n, line_panics l -> sent put ((Long l, xs) :: r) w n Panicked w n
| st_endless : forall l xs r w n, line_circles l -> sent put ((Long l, xs) :: r) w n Endless w n.

(** The text of the lines before the first that cannot be folded; [f] tells how it goes on there. *)
Inductive before_bad : list wline -> str -> fin -> Prop :=
| bb_nil : before_bad [] [] Done
| bb_line : forall x s r t f, shown x s -> before_bad r t f -> before_bad (x :: r) (s ++ t) f
| bb_panic : forall l r, line_panics l -> before_bad (Long l :: r) [] Panicked
| bb_endless : forall l r, line_circles l -> before_bad (Long l :: r) [] Endless.

(** ** Some writers *)

(** A [String], and a buffer of [cap] octets that refuses a text that does not fit. *)
Definition put_string (w x : str) : str * bool := (w ++ x, true).
Definition put_limited (cap : nat) (w x : str) : str * bool :=
  if octets (w ++ x) <=? cap then (w ++ x, true) else (w, false).
(** A writer keeps what it is given: everything if it succeeds, some part from the start if it fails. *)
Definition keeps {W} (put : W -> str -> W * bool) (kept : W -> str) : Prop :=
  forall w x w1 ok, put w x = (w1, ok) -> exists y, kept w1 = kept w ++ y /\ if ok then y = x else has_prefix y x.
(** Calls are counted together with their answers. *)
Definition put_logged {W} (put : W -> str -> W * bool) (s : W * list bool) (x : str) : (W * list bool) * bool :=
  let '(w1, ok) := put (fst s) x in ((w1, snd s ++ [ok]), ok).

(** The functions that return a [String] agree with the end [g]: they return [a], panic, or never return. *)
Definition as_text {A} (o : outcome A) (g : fin) (a : A) : Prop :=
  (g = Done /\ o = Ret a) \/ (g = Panicked /\ o = Panic) \/ (g = Endless /\ o = NoFuel).
