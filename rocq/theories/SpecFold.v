(** Where exactly a line is cut, and the text of reserialized documents. *)
From Verif Require Import Str Spec ValueTypes Property Chrono DateTime Component Calendar Nom Parser SpecBuild SpecDate SpecText.

(** ** ASCII lines *)

(** A first piece of [n] characters, one less if white space would follow; the last piece has at most 75. *)
Definition ws_next (s : str) : Prop := exists c r, s = c :: r /\ is_ws c = true.
Inductive cut_ascii : nat -> str -> list str -> str -> Prop :=
| ca_last : forall n s, length s <= 75 -> cut_ascii n s [] s
| ca_full : forall n p r ps last, 75 < length (p ++ r) -> length p = n -> ~ ws_next r ->
    cut_ascii 74 r ps last -> cut_ascii n (p ++ r) (p :: ps) last
| ca_short : forall n p c r ps last, 75 < length (p ++ c :: r) -> S (length p) = n -> ws_next r ->
    cut_ascii 74 (c :: r) ps last -> cut_ascii n (p ++ c :: r) (p :: ps) last.

(** ** All lines *)

(** A place between two characters, in octets; the character with the index [i] is white space. *)
Definition place (l : str) (p : nat) : Prop := exists a b, l = a ++ b /\ octets a = p.
Definition ws_index (l : str) (i : nat) : Prop := exists c, nth_error l i = Some c /\ is_ws c = true.
(** From [p] down to a place between two characters, over the numbers of characters that are white space
    (octets are taken for characters there). *)
Inductive lands (l : str) : nat -> nat -> Prop :=
| ld_here : forall p, place l p -> lands l p p
| ld_down : forall p q, ~ place l (S p) -> ~ ws_index l p -> lands l p q -> lands l (S p) q
| ld_ws : forall p q, ~ place l (S (S p)) -> ws_index l (S p) -> lands l p q -> lands l (S (S p)) q.
Definition cut_place (l : str) (p q : nat) : Prop := ws_index l p /\ lands l (p - 1) q \/ ~ ws_index l p /\ lands l p q.
(** [cuts l a n ps last]: after its part [a], the line [l] is cut into [ps] and [last]; [n] is the next place to try. *)
Inductive cuts (l : str) : str -> nat -> list str -> str -> Prop :=
| ct_last : forall a n r, l = a ++ r -> octets r <= 75 -> cuts l a n [] r
| ct_piece : forall a n p r ps last, l = a ++ p ++ r -> 75 < octets (p ++ r) -> cut_place l n (octets (a ++ p)) ->
    cuts l (a ++ p) (octets (a ++ p) + 74) ps last -> cuts l a n (p :: ps) last.

(** The physical lines of a content line. *)
Definition cut_line (l s : str) : Prop := exists ps last, cuts l [] 75 ps last /\ s = join_fold ps last ++ [CR; LF].

(** ** Reserialized documents *)

(** Parameters and values are written as they are. *)
Inductive pparam_written : pparam -> str -> Prop :=
| pp_some : forall k v, pparam_written (mk_pparam k (Some v)) (SEMI :: k ++ EQUALS :: v)
| pp_none : forall k, pparam_written (mk_pparam k None) (SEMI :: k).
Definition pline_written (p : pprop) (l : str) : Prop :=
  exists ts, Forall2 pparam_written (pr_params p) ts /\ l = pr_name p ++ concat ts ++ COLON :: pr_val p.
(** Times of the years 0 to 9999, identifiers of 128 bits. *)
Definition env_real (e : env) : Prop := forall n, real_dt (now_at e n) /\ four_digits (date_of (now_at e n)) /\ (uuid_at e n < 2 ^ 128)%N.
(** A component called calendar gets a DTSTAMP and a UID if it has none. *)
Definition names_prop (k : str) (ps : list pprop) : Prop := exists p, In p ps /\ pr_name p = k.
Definition stamp_lines (e : env) (ps : list pprop) (x : str) : Prop := exists a b, x = a ++ b
  /\ (names_prop (lit "DTSTAMP") ps /\ a = [] \/ ~ names_prop (lit "DTSTAMP") ps /\ exists n t, dt_digits (now_at e n) t /\ a = lit "DTSTAMP:" ++ t ++ lit "Z" ++ [CR; LF])
  /\ (names_prop (lit "UID") ps /\ b = [] \/ ~ names_prop (lit "UID") ps /\ exists n t, uuid_text (uuid_at e n) t /\ b = lit "UID:" ++ t ++ [CR; LF]).
Inductive pwritten {U : Unicode} (e : env) : pcomp -> str -> Prop :=
| Pwritten : forall k ps cs x ts ss,
    (to_lowercase k = lit "calendar" /\ stamp_lines e ps x \/ to_lowercase k <> lit "calendar" /\ x = []) ->
    Forall2 (fun p t => exists l, pline_written p l /\ cut_line l t) ps ts ->
    Forall2 (pwritten e) cs ss ->
    pwritten e (mk_pcomp k ps cs)
      (lit "BEGIN:" ++ k ++ [CR; LF] ++ x ++ concat ts ++ concat ss ++ lit "END:" ++ k ++ [CR; LF]).
(** All property lines can be cut. *)
Inductive lines_cut : pcomp -> Prop :=
| Lines_cut : forall k ps cs, Forall (fun p => exists l s, pline_written p l /\ cut_line l s) ps -> Forall lines_cut cs -> lines_cut (mk_pcomp k ps cs).
