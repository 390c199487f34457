(** JSON texts (RFC 8259): specification. *)
From Verif Require Import Str Serde.

(** Section 7: strings. *)
Definition hex_is (d : N) (c : char) : Prop := (d < 10 /\ c = 48 + d \/ 10 <= d < 16 /\ (c = 55 + d \/ c = 87 + d))%N.
Inductive four_hex : N -> str -> Prop :=
| fh : forall x y z w a b c d, hex_is x a -> hex_is y b -> hex_is z c -> hex_is w d -> four_hex (4096 * x + 256 * y + 16 * z + w)%N [a; b; c; d].
Definition escapes : list (char * char) :=
  [(34, 34); (92, 92); (47, 47); (98, 8); (102, 12); (110, 10); (114, 13); (116, 9)]%N.
Inductive char_text : char -> str -> Prop :=
| ct_plain : forall c, (32 <= c)%N -> c <> 34%N -> c <> 92%N -> char_text c [c]
| ct_short : forall e c, In (e, c) escapes -> char_text c [92%N; e]
| ct_hex : forall n h, four_hex n h -> (n < 55296 \/ 57344 <= n)%N -> char_text n ([92; 117]%N ++ h)
| ct_pair : forall a b g h, four_hex a g -> four_hex b h -> (55296 <= a < 56320)%N -> (56320 <= b < 57344)%N ->
    char_text (65536 + 1024 * (a - 55296) + (b - 56320))%N ([92; 117]%N ++ g ++ [92; 117]%N ++ h).
Inductive string_text : str -> str -> Prop :=
| st : forall s ts, Forall2 char_text s ts -> string_text s ([34%N] ++ concat ts ++ [34%N]).
(** Section 6: numbers. *)
Definition digit_run (s : str) : Prop := s <> [] /\ Forall (fun c => (48 <= c <= 57)%N) s.
Inductive number_text : str -> Prop :=
| nt : forall sign int frac exp, In sign [[]; [45%N]] ->
    (int = [48%N] \/ digit_run int /\ forall r, int <> 48%N :: r) ->
    (frac = [] \/ exists d, digit_run d /\ frac = 46%N :: d) ->
    (exp = [] \/ exists x g d, In x [69; 101]%N /\ In g [[]; [43%N]; [45%N]] /\ digit_run d /\ exp = x :: g ++ d) ->
    number_text (sign ++ int ++ frac ++ exp).
(** Section 2: white space; section 3 to 5: values, objects and arrays. *)
Definition space (s : str) : Prop := Forall (fun c => In c [32; 9; 10; 13]%N) s.
Inductive json_text : json -> str -> Prop :=
| jt_null : json_text JNull (lit "null")
| jt_true : json_text (JBool true) (lit "true")
| jt_false : json_text (JBool false) (lit "false")
| jt_num : forall t, number_text t -> json_text (JNum t) t
| jt_str : forall s t, string_text s t -> json_text (JStr s) t
| jt_arr : forall l t, array_text l t -> json_text (JArr l) ([91%N] ++ t ++ [93%N])
| jt_obj : forall m t, object_text m t -> json_text (JObj m) ([123%N] ++ t ++ [125%N])
with array_text : list json -> str -> Prop :=
| at_none : forall a, space a -> array_text [] a
| at_one : forall v a t b, space a -> json_text v t -> space b -> array_text [v] (a ++ t ++ b)
| at_more : forall v l a t b u, space a -> json_text v t -> space b -> l <> [] -> array_text l u -> array_text (v :: l) (a ++ t ++ b ++ [44%N] ++ u)
with object_text : list (str * json) -> str -> Prop :=
| ot_none : forall a, space a -> object_text [] a
| ot_one : forall k v a s b c t d, space a -> string_text k s -> space b -> space c -> json_text v t -> space d ->
    object_text [(k, v)] (a ++ s ++ b ++ [58%N] ++ c ++ t ++ d)
| ot_more : forall k v m a s b c t d u, space a -> string_text k s -> space b -> space c -> json_text v t -> space d -> m <> [] -> object_text m u ->
    object_text ((k, v) :: m) (a ++ s ++ b ++ [58%N] ++ c ++ t ++ d ++ [44%N] ++ u).
Definition json_document (v : json) (s : str) : Prop := exists a t b, s = a ++ t ++ b /\ space a /\ json_text v t /\ space b.
(** A value whose numbers are numbers. *)
Fixpoint numbers_ok (v : json) : Prop :=
  match v with
  | JNum t => number_text t
  | JArr l => fold_right (fun x P => numbers_ok x /\ P) True l
  | JObj m => fold_right (fun e P => numbers_ok (snd e) /\ P) True m
  | _ => True
  end.
(** A text without the spaces and line feeds outside of its strings. *)
Inductive place := Outside | Inside | Escaped.
Fixpoint squeeze (w : place) (s : str) : str :=
  match s with
  | [] => []
  | c :: r =>
      match w with
      | Outside => if ((c =? 32) || (c =? 10))%N then squeeze Outside r else c :: squeeze (if (c =? 34)%N then Inside else Outside) r
      | Inside => c :: squeeze (if (c =? 34)%N then Outside else if (c =? 92)%N then Escaped else Inside) r
      | Escaped => c :: squeeze Inside r
      end
  end.
(** The lines of an indented text, with the number of brackets open before and after each: one value or bracket a line, after
    its key and indented by two spaces a level; a comma may follow.  A bracket is not closed on the line after the one that
    opens it ([true]): empty arrays and objects are values. *)
Definition key_part (p : str) : Prop := p = [] \/ exists k s, string_text k s /\ p = s ++ [58; 32]%N.
Definition comma_part (c : str) : Prop := c = [] \/ c = [44%N].
Definition one_value (b : str) : Prop := In b [lit "null"; lit "true"; lit "false"; lit "[]"; lit "{}"] \/ number_text b \/ exists s, string_text s b.
Inductive line_at : nat -> str -> nat -> Prop :=
| la_value : forall d p b c, key_part p -> one_value b -> comma_part c -> line_at d (repeat 32%N (2 * d) ++ p ++ b ++ c) d
| la_open : forall d p b, key_part p -> In b [lit "["; lit "{"] -> line_at d (repeat 32%N (2 * d) ++ p ++ b) (1 + d)
| la_close : forall d b c, In b [lit "]"; lit "}"] -> comma_part c -> line_at (1 + d) (repeat 32%N (2 * d) ++ b ++ c) d.
Inductive lines_at : bool -> nat -> list str -> nat -> bool -> Prop :=
| ls_none : forall o d, lines_at o d [] d o
| ls_more : forall o p d e f l ls, line_at d l e -> (o = true -> d <= e) -> lines_at (d <? e) e ls f p -> lines_at o d (l :: ls) f p.
Definition indented (s : str) : Prop := exists l ls, lines_at false 0 (l :: ls) 0 false /\ s = l ++ flat_map (cons 10%N) ls.
