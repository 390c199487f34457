(** The text that is written: characters, values, parameters, lines, components. *)
From Verif Require Import Str Spec ValueTypes Property Chrono DateTime Component Calendar Nom Parser
  SpecBuild SpecDate SpecTree SpecDoc SpecRound.

(** A character of a TEXT value (RFC 5545, section 3.3.11; [N] is 78). *)
Inductive char_written : char -> str -> Prop :=
| cw_plain : forall c, ~ In c [BSL; SEMI; COMMA; LF] -> char_written c [c]
| cw_escaped : forall c, In c [BSL; SEMI; COMMA] -> char_written c [BSL; c]
| cw_newline : char_written LF [BSL; 78%N].
Definition text_written (v w : str) : Prop := exists ss, Forall2 char_written v ss /\ w = concat ss.
(** A parameter: its value in quotes if it has a colon or a semicolon. *)
Inductive param_written : parameter -> str -> Prop :=
| pw_plain : forall k v, ~ In COLON v -> ~ In SEMI v -> param_written (k, v) (SEMI :: k ++ EQUALS :: v)
| pw_quoted : forall k v, In COLON v \/ In SEMI v -> param_written (k, v) (SEMI :: k ++ EQUALS :: DQ :: v ++ [DQ]).
(** A content line: name, parameters, colon, value; TEXT values are escaped, others are not. *)
Definition line_written {U : Unicode} (p : property) (l : str) : Prop :=
  exists ts w, l = p_key p ++ concat ts ++ COLON :: w /\ Forall2 param_written (p_params p) ts
    /\ (is_text p -> text_written (p_val p) w) /\ (~ is_text p -> w = p_val p).
(** The physical lines of a content line: it is cut into pieces if and only if it is longer than 75 octets. *)
Definition folded (l s : str) : Prop :=
  exists ps last, l = concat ps ++ last /\ s = join_fold ps last ++ [CR; LF] /\ (octets l <= 75 <-> ps = []).

(** A component: a BEGIN line, the lines of the properties, the sub-components, an END line. *)
Inductive written {U : Unicode} : tree -> str -> Prop :=
| Written : forall k ps ts cs ss,
    Forall2 (fun p t => exists l, line_written p l /\ folded l t) ps ts ->
    Forall2 written cs ss ->
    written (Node k ps cs)
      (lit "BEGIN:" ++ k ++ [CR; LF] ++ concat ts ++ concat ss ++ lit "END:" ++ k ++ [CR; LF]).

(** Numerals: of a fixed width, and without leading zeros. *)
Definition digits (w : nat) (n : N) (s : str) : Prop := length s = w /\ decimal s n.
Definition plain_number (n : N) (s : str) : Prop := decimal s n /\ (hd 0%N s = 48%N -> s = [48%N]).
(** Dates and times (RFC 5545, sections 3.3.4, 3.3.5, 3.3.12); a leap second is the second 60. *)
Definition date_digits (d : ndate) (s : str) : Prop := exists y m dd,
  s = y ++ m ++ dd /\ digits 4 (Z.to_N (year d)) y /\ digits 2 (month d) m /\ digits 2 (day d) dd.
Definition shown_second (t : ntime) : N := if (nano t <? 1000000000)%N then second t else 60%N.
Definition time_digits (t : ntime) (s : str) : Prop := exists h m ss,
  s = h ++ m ++ ss /\ digits 2 (hour t) h /\ digits 2 (minute t) m /\ digits 2 (shown_second t) ss.
Definition dt_digits (d : ndt) (s : str) : Prop := exists a b,
  s = a ++ lit "T" ++ b /\ date_digits (date_of d) a /\ time_digits (time_of d) b.
(** The value and the parameters of a date property. *)
Definition dpt_digits (x : dpt) (s : str) (qs : list parameter) : Prop :=
  match x with
  | DDate d => date_digits d s /\ qs = [(lit "VALUE", lit "DATE")]
  | DT (Floating d) => dt_digits d s /\ qs = []
  | DT (Utc d) => (exists r, s = r ++ lit "Z" /\ dt_digits d r) /\ qs = []
  | DT (WithTimezone d z) => dt_digits d s /\ qs = [(lit "TZID", z)]
  end.
(** A generated identifier: 8, 4, 4, 4 and 12 lower-case hexadecimal digits. *)
Inductive hexadecimal : str -> N -> Prop :=
| hx_nil : hexadecimal [] 0
| hx_snoc : forall s n d c, hexadecimal s n -> (d < 10 /\ c = 48 + d \/ 10 <= d < 16 /\ c = 97 + (d - 10))%N ->
    hexadecimal (s ++ [c]) (16 * n + d)%N.
Definition uuid_text (n : N) (s : str) : Prop := exists a b c d e,
  s = a ++ [DASH] ++ b ++ [DASH] ++ c ++ [DASH] ++ d ++ [DASH] ++ e
  /\ length a = 8 /\ length b = 4 /\ length c = 4 /\ length d = 4 /\ length e = 12
  /\ hexadecimal (a ++ b ++ c ++ d ++ e) n.
