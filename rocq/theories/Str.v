(** Rust [char] and [str], and the [std] string operations used by the crate.

    A [str] is a list of Unicode code points.  Byte offsets are derived from
    the UTF-8 width of each code point.  Nothing in this file models a line of
    /repo directly: it models the Rust standard library as the crate uses it. *)
From Coq Require Export List NArith ZArith Arith Lia Bool String Ascii.
From Coq Require Import ZifyBool ZifyNat ZifyN.
Export ListNotations.
(* [Coq.Strings.String] also exports [length], [append], ...: give the list names back. *)
From Coq Require Export List.

Notation char := N (only parsing).
Definition str := list N.

Arguments N.add : simpl never.
Arguments N.sub : simpl never.
Arguments N.mul : simpl never.
Arguments N.div : simpl never.
Arguments N.modulo : simpl never.
Arguments N.pow : simpl never.
Arguments N.leb : simpl never.
Arguments N.ltb : simpl never.
Arguments N.eqb : simpl never.
Arguments N.compare : simpl never.

(** A Rust string literal (the literals used are all ASCII). *)
Definition lit (s : string) : str := map N_of_ascii (list_ascii_of_string s).
Arguments lit _%string.

Definition TAB : char := 9%N.
Definition LF : char := 10%N.
Definition CR : char := 13%N.
Definition SP : char := 32%N.
Definition DQ : char := 34%N.        (* double quote *)
Definition PLUS : char := 43%N.
Definition COMMA : char := 44%N.
Definition DASH : char := 45%N.
Definition COLON : char := 58%N.
Definition SEMI : char := 59%N.
Definition EQUALS : char := 61%N.
Definition BSL : char := 92%N.       (* backslash *)
Definition crlf : str := [CR; LF].

(** [char::len_utf8] *)
Definition utf8_len (c : char) : nat :=
  if (c <? 128)%N then 1 else if (c <? 2048)%N then 2 else if (c <? 65536)%N then 3 else 4.

(** [str::len]: length in bytes. *)
Fixpoint blen (s : str) : nat :=
  match s with [] => 0 | c :: r => utf8_len c + blen r end.

(** Unicode scalar value, the values a Rust [char] can take. *)
Definition valid_char (c : char) : bool :=
  ((c <? 55296) || ((57343 <? c) && (c <? 1114112)))%N.

Definition in_range (a b c : N) : bool := ((a <=? c) && (c <=? b))%N.

(** [char::is_whitespace] (Unicode White_Space, complete). *)
Definition is_ws (c : char) : bool :=
  in_range 9 13 c || (c =? 32)%N || (c =? 133)%N || (c =? 160)%N || (c =? 5760)%N
  || in_range 8192 8202 c || (c =? 8232)%N || (c =? 8233)%N || (c =? 8239)%N
  || (c =? 8287)%N || (c =? 12288)%N.

Definition is_digit (c : char) : bool := in_range 48 57 c.
Definition is_upper (c : char) : bool := in_range 65 90 c.
Definition is_lower_ascii (c : char) : bool := in_range 97 122 c.

(** Unicode tables above ASCII: arbitrary.  Every theorem holds for all of them. *)
Class Unicode := { alnum_hi : N -> bool; lower_hi : N -> bool; tolower_hi : N -> list N }.

(** [char::is_alphanumeric] *)
Definition is_alnum {U : Unicode} (c : char) : bool :=
  if (c <? 128)%N then is_digit c || is_upper c || is_lower_ascii c else alnum_hi c.
(** [char::is_lowercase] *)
Definition is_lowercase {U : Unicode} (c : char) : bool :=
  if (c <? 128)%N then is_lower_ascii c else lower_hi c.
(** ASCII part of [char::to_lowercase]. *)
Definition lower_ascii (c : char) : char := if is_upper c then (c + 32)%N else c.
(** [str::to_lowercase] (without the context-sensitive final-sigma rule, which only
    concerns non-ASCII text and is subsumed by [tolower_hi] being arbitrary per character
    as far as comparison with an ASCII literal goes). *)
Definition to_lowercase {U : Unicode} (s : str) : str :=
  flat_map (fun c => if (c <? 128)%N then [lower_ascii c] else tolower_hi c) s.

(** Equality and order on [str] ([Ord for str] is bytewise, which for UTF-8 is the
    lexicographic order on code points; proved in [StrFacts.utf8_order]). *)
Fixpoint str_eqb (a b : str) : bool :=
  match a, b with
  | [], [] => true
  | x :: a', y :: b' => (x =? y)%N && str_eqb a' b'
  | _, _ => false
  end.

Fixpoint str_cmp (a b : str) : comparison :=
  match a, b with
  | [], [] => Eq
  | [], _ :: _ => Lt
  | _ :: _, [] => Gt
  | x :: a', y :: b' => match (x ?= y)%N with Eq => str_cmp a' b' | o => o end
  end.

(** [str::starts_with] *)
Fixpoint starts_with (p s : str) : bool :=
  match p, s with
  | [], _ => true
  | a :: p', b :: s' => (a =? b)%N && starts_with p' s'
  | _ :: _, [] => false
  end.

(** [str::contains] with a string pattern. *)
Fixpoint contains (p s : str) : bool :=
  starts_with p s || match s with [] => false | _ :: r => contains p r end.

(** [str::replace] with a [char] pattern. *)
Definition replace_char (c : char) (rep s : str) : str :=
  flat_map (fun x => if (x =? c)%N then rep else [x]) s.

(** Left-to-right, non-overlapping matches of a pattern [p]; [k] is the number of
    characters of the current match still to be skipped.  Only called with non-empty [p]. *)
Fixpoint replace_go (p rep s : str) (k : nat) : str :=
  match s with
  | [] => []
  | c :: r =>
      match k with
      | S k' => replace_go p rep r k'
      | O => if starts_with p s then rep ++ replace_go p rep r (List.length p - 1)
             else c :: replace_go p rep r 0
      end
  end.
(** [str::replace] with a non-empty string pattern. *)
Definition replace (p rep s : str) : str := replace_go p rep s 0.

(** [str::split] with a non-empty string pattern. *)
Fixpoint split_go (p s : str) (k : nat) : list str :=
  match s with
  | [] => [[]]
  | c :: r =>
      match k with
      | S k' => split_go p r k'
      | O => if starts_with p s then [] :: split_go p r (List.length p - 1)
             else match split_go p r 0 with
                  | h :: t => (c :: h) :: t
                  | [] => [[c]]
                  end
      end
  end.
Definition split (p s : str) : list str := split_go p s 0.

(** [str::trim_start] *)
Fixpoint trim_start (s : str) : str :=
  match s with c :: r => if is_ws c then trim_start r else s | [] => [] end.

(** Decimal printing of an unsigned integer ([ToString]). *)
Fixpoint dec_go (fuel : nat) (n : N) (acc : str) : str :=
  match fuel with
  | O => acc
  | S f => let acc' := (48 + n mod 10)%N :: acc in
           if (n / 10 =? 0)%N then acc' else dec_go f (n / 10)%N acc'
  end.
Definition dec (n : N) : str := dec_go (S (N.size_nat n)) n [].

(** [{:0w$}] of an unsigned integer. *)
Definition pad (w : nat) (n : N) : str := repeat 48%N (w - List.length (dec n)) ++ dec n.

Definition dec_val (s : str) : N := fold_left (fun a c => (a * 10 + (c - 48))%N) s 0%N.

(** [str::parse::<uN>] with maximum [mx]: optional [+], at least one digit, range check. *)
Definition parse_uint (mx : N) (s : str) : option N :=
  let d := match s with c :: r => if (c =? PLUS)%N then r else s | [] => s end in
  match d with
  | [] => None
  | _ => if forallb is_digit d then
           let v := dec_val d in if (v <=? mx)%N then Some v else None
         else None
  end.
Definition U32_MAX : N := 4294967295%N.
Definition U8_MAX : N := 255%N.

(** [BTreeMap<String, V>]: association list sorted by [str_cmp]. *)
Fixpoint bt_insert {V} (k : str) (v : V) (m : list (str * V)) : list (str * V) :=
  match m with
  | [] => [(k, v)]
  | (k', v') :: r =>
      match str_cmp k k' with
      | Lt => (k, v) :: m
      | Eq => (k, v) :: r
      | Gt => (k', v') :: bt_insert k v r
      end
  end.

(** Lookup, for both map types. *)
Fixpoint map_get {V} (k : str) (m : list (str * V)) : option V :=
  match m with
  | [] => None
  | (k', v') :: r => if str_eqb k k' then Some v' else map_get k r
  end.

(** [HashMap<String, V>]: association list in (arbitrary) iteration order;
    replacing keeps the place, a new key may go anywhere - here, last. *)
Fixpoint hm_insert {V} (k : str) (v : V) (m : list (str * V)) : list (str * V) :=
  match m with
  | [] => [(k, v)]
  | (k', v') :: r => if str_eqb k k' then (k', v) :: r else (k', v') :: hm_insert k v r
  end.

(** Outcome of code that may panic or loop. *)
Inductive outcome (A : Type) :=
| Ret (a : A)      (* returns *)
| Panic            (* panics *)
| NoFuel.          (* the iteration budget of the model was exhausted *)
Arguments Ret {A}. Arguments Panic {A}. Arguments NoFuel {A}.

Definition obind {A B} (m : outcome A) (f : A -> outcome B) : outcome B :=
  match m with Ret a => f a | Panic => Panic | NoFuel => NoFuel end.
