(** The JSON texts of parsed calendars: serde_json 1's [to_string], [to_string_pretty] and [from_str], as used in
    examples/ical_to_json.rs:8-19 and examples/json_to_ical.rs:5-11 (written from their documentation and from memory; the
    library is not in /repo).  Simplified: a text is read as a value first (serde_json reads it directly as a calendar, with
    the same result where it succeeds), and an unpaired surrogate escape is refused in ignored fields too. *)
From Verif Require Import Str ValueTypes Property Component Calendar Nom Parser Fold ErrorText Serde.

(** ** Writing *)
Definition QT : char := 34%N.
Definition BS : char := 92%N.
Definition hex_digit (n : N) : char := (if n <? 10 then 48 + n else 87 + n)%N.
(** [format_escaped_str], with the table [ESCAPE]. *)
Definition json_escape (c : char) : str :=
  if (c =? QT)%N then [BS; QT] else if (c =? BS)%N then [BS; BS]
  else if (c =? 8)%N then [BS; 98%N] else if (c =? 9)%N then [BS; 116%N] else if (c =? 10)%N then [BS; 110%N]
  else if (c =? 12)%N then [BS; 102%N] else if (c =? 13)%N then [BS; 114%N]
  else if (c <? 32)%N then [BS; 117; 48; 48; hex_digit (c / 16); hex_digit (c mod 16)]%N
  else [c].
Definition quoted (s : str) : str := [QT] ++ flat_map json_escape s ++ [QT].
Fixpoint commas (l : list str) : str := match l with [] => [] | [s] => s | s :: r => s ++ [44%N] ++ commas r end.
Definition literal (b : bool) : str := if b then lit "true" else lit "false".
(** [CompactFormatter] *)
Fixpoint json_compact (v : json) : str :=
  match v with
  | JNull => lit "null" | JBool b => literal b | JNum t => t | JStr s => quoted s
  | JArr l => [91%N] ++ commas (map json_compact l) ++ [93%N]
  | JObj m => [123%N] ++ commas (map (fun e => quoted (fst e) ++ [58%N] ++ json_compact (snd e)) m) ++ [125%N]
  end.
(** [PrettyFormatter], indented by two spaces; [n] is the level. *)
Definition newline (n : nat) : str := 10%N :: repeat 32%N (2 * n).
Fixpoint json_pretty (n : nat) (v : json) : str :=
  match v with
  | JNull => lit "null" | JBool b => literal b | JNum t => t | JStr s => quoted s
  | JArr [] => [91; 93]%N
  | JArr l => [91%N] ++ commas (map (fun x => newline (S n) ++ json_pretty (S n) x) l) ++ newline n ++ [93%N]
  | JObj [] => [123; 125]%N
  | JObj m => [123%N] ++ commas (map (fun e => newline (S n) ++ quoted (fst e) ++ [58; 32]%N ++ json_pretty (S n) (snd e)) m) ++ newline n ++ [125%N]
  end.

(** ** Reading *)
Definition is_space (c : char) : bool := ((c =? 32) || (c =? 9) || (c =? 10) || (c =? 13))%N.
Fixpoint skip_space (i : str) : str := match i with c :: r => if is_space c then skip_space r else i | [] => [] end.
(** [decode_hex_escape] *)
Definition hex_value (c : char) : option N :=
  if in_range 48 57 c then Some (c - 48)%N else if in_range 65 70 c then Some (c - 55)%N
  else if in_range 97 102 c then Some (c - 87)%N else None.
Definition hex_four (i : str) : option (N * str) :=
  match i with
  | a :: b :: c :: d :: r =>
      match hex_value a, hex_value b, hex_value c, hex_value d with
      | Some x, Some y, Some z, Some w => Some ((((x * 16 + y) * 16 + z) * 16 + w)%N, r)
      | _, _, _, _ => None
      end
  | _ => None
  end.
(** [parse_escape] *)
Definition short_escape (e : char) : option char :=
  if (e =? QT)%N then Some QT else if (e =? BS)%N then Some BS else if (e =? 47)%N then Some 47%N
  else if (e =? 98)%N then Some 8%N else if (e =? 102)%N then Some 12%N else if (e =? 110)%N then Some 10%N
  else if (e =? 114)%N then Some 13%N else if (e =? 116)%N then Some 9%N else None.
(** [parse_unicode_escape], after [\u] *)
Definition unicode_escape (i : str) : option (char * str) :=
  match hex_four i with
  | Some (u, r) =>
      if in_range 56320 57343 u then None
      else if in_range 55296 56319 u then
        match r with
        | x :: y :: r' =>
            if ((x =? BS) && (y =? 117))%N then
              match hex_four r' with
              | Some (w, r'') => if in_range 56320 57343 w then Some (((u - 55296) * 1024 + (w - 56320) + 65536)%N, r'') else None
              | None => None
              end
            else None
        | _ => None
        end
      else Some (u, r)
  | None => None
  end.
(** One character of a string, as it is or escaped. *)
Definition string_char (i : str) : option (char * str) :=
  match i with
  | [] => None
  | c :: r =>
      if (c =? BS)%N then
        match r with
        | [] => None
        | e :: r' => if (e =? 117)%N then unicode_escape r' else option_map (fun c => (c, r')) (short_escape e)
        end
      else if (c <? 32)%N then None else Some (c, r)
  end.
(** [parse_str], after the opening quote. *)
Fixpoint string_rest (fuel : nat) (i : str) : option (str * str) :=
  match fuel with
  | O => None
  | S f =>
      match i with
      | [] => None
      | q :: r =>
          if (q =? QT)%N then Some ([], r)
          else match string_char i with
               | Some (c, r') => option_map (fun x => (c :: fst x, snd x)) (string_rest f r')
               | None => None
               end
      end
  end.
(** Numbers: [parse_integer], [parse_decimal], [parse_exponent].  None of the characters of a number can follow after one, so
    they are all taken first. *)
Definition is_number_char (c : char) : bool := (is_digit c || (c =? 43) || (c =? 45) || (c =? 46) || (c =? 69) || (c =? 101))%N.
Fixpoint run_of (f : char -> bool) (i : str) : str * str :=
  match i with c :: r => if f c then (c :: fst (run_of f r), snd (run_of f r)) else ([], i) | [] => ([], []) end.
Definition drop_char (c : char) (i : str) : option str := match i with d :: r => if (d =? c)%N then Some r else None | [] => None end.
Definition drop_opt (c : char) (i : str) : str := match drop_char c i with Some r => r | None => i end.
(** At least one digit; the rest. *)
Definition digits (i : str) : option str := match run_of is_digit i with ([], _) => None | (_, r) => Some r end.
Definition exponent_ok (i : str) : bool :=
  match i with
  | [] => true
  | c :: r =>
      if ((c =? 69) || (c =? 101))%N then
        match digits (match r with d :: r' => if ((d =? 43) || (d =? 45))%N then r' else r | [] => r end) with
        | Some [] => true | _ => false end
      else false
  end.
Definition fraction_ok (i : str) : bool :=
  match drop_char 46%N i with
  | Some r => match digits r with Some r' => exponent_ok r' | None => false end
  | None => exponent_ok i
  end.
Definition number_ok (i : str) : bool :=
  let i := drop_opt 45%N i in
  match drop_char 48%N i with
  | Some r => fraction_ok r
  | None => match digits i with Some r => fraction_ok r | None => false end
  end.
(** A word. *)
Fixpoint drop_word (w i : str) : option str :=
  match w, i with
  | [], _ => Some i
  | c :: w', d :: i' => if (c =? d)%N then drop_word w' i' else None
  | _, [] => None
  end.

(** The rest of an array, after its first bracket, if it is not empty. *)
Fixpoint items (p : str -> option (json * str)) (fuel : nat) (i : str) : option (list json * str) :=
  match fuel with
  | O => None
  | S f =>
      match p i with
      | None => None
      | Some (v, r) =>
          match skip_space r with
          | c :: r' => if (c =? 93)%N then Some ([v], r')
                       else if (c =? 44)%N then option_map (fun x => (v :: fst x, snd x)) (items p f r')
                       else None
          | [] => None
          end
      end
  end.
(** A key and the colon after it. *)
Definition member_key (i : str) : option (str * str) :=
  match skip_space i with
  | q :: r =>
      if (q =? QT)%N then
        match string_rest (S (length r)) r with
        | Some (k, r') => match skip_space r' with
                          | c :: r'' => if (c =? 58)%N then Some (k, r'') else None
                          | [] => None
                          end
        | None => None
        end
      else None
  | [] => None
  end.
Fixpoint members (p : str -> option (json * str)) (fuel : nat) (i : str) : option (list (str * json) * str) :=
  match fuel with
  | O => None
  | S f =>
      match member_key i with
      | None => None
      | Some (k, r0) =>
          match p r0 with
          | None => None
          | Some (v, r) =>
              match skip_space r with
              | c :: r' => if (c =? 125)%N then Some ([(k, v)], r')
                           else if (c =? 44)%N then option_map (fun x => ((k, v) :: fst x, snd x)) (members p f r')
                           else None
              | [] => None
              end
          end
      end
  end.
(** [deserialize_any] *)
Fixpoint json_value (fuel : nat) (i : str) : option (json * str) :=
  match fuel with
  | O => None
  | S f =>
      match skip_space i with
      | [] => None
      | c :: r =>
          if (c =? QT)%N then option_map (fun x => (JStr (fst x), snd x)) (string_rest (S (length r)) r)
          else if (c =? 91)%N then
            match skip_space r with
            | d :: r' => if (d =? 93)%N then Some (JArr [], r')
                         else option_map (fun x => (JArr (fst x), snd x)) (items (json_value f) (S (length r)) r)
            | [] => None
            end
          else if (c =? 123)%N then
            match skip_space r with
            | d :: r' => if (d =? 125)%N then Some (JObj [], r')
                         else option_map (fun x => (JObj (fst x), snd x)) (members (json_value f) (S (length r)) r)
            | [] => None
            end
          else if (c =? 110)%N then option_map (fun x => (JNull, x)) (drop_word (lit "null") (c :: r))
          else if (c =? 116)%N then option_map (fun x => (JBool true, x)) (drop_word (lit "true") (c :: r))
          else if (c =? 102)%N then option_map (fun x => (JBool false, x)) (drop_word (lit "false") (c :: r))
          else let t := run_of is_number_char (c :: r) in
               if number_ok (fst t) then Some (JNum (fst t), snd t) else None
      end
  end.
(** [from_str], with [Deserializer::end]. *)
Definition json_read (i : str) : option json :=
  match json_value (S (length i)) i with
  | Some (v, r) => match skip_space r with [] => Some v | _ => None end
  | None => None
  end.

(** ** Calendars *)
Definition cal_to_text (c : pcal) : str := json_compact (ser_cal c).
Definition cal_to_pretty (c : pcal) : str := json_pretty 0 (ser_cal c).
Definition cal_from_text (i : str) : option pcal := match json_read i with Some v => cal_from_json v | None => None end.
(** The examples: a text to JSON (or the message), and back ([None] where [main] returns an error). *)
Definition ical_to_json {U : Unicode} (s : str) : result str str := rmap cal_to_pretty (read_calendar_s (unfold s)).
Definition json_to_ical {U : Unicode} (e : env) (i : str) : option (outcome str) := option_map (pcal_write e) (cal_from_text i).
