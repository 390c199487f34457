(** Specifications used in the theorem statements.  They mention no function of the model,
    only lists of code points. *)
From Verif Require Import Str.

(** ** UTF-8 *)

(** The UTF-8 encoding of a code point and of a text (RFC 3629). *)
Definition utf8 (c : char) : list N :=
  (if c <? 128 then [c]
   else if c <? 2048 then [192 + c / 64; 128 + c mod 64]
   else if c <? 65536 then [224 + c / 4096; 128 + (c / 64) mod 64; 128 + c mod 64]
   else [240 + c / 262144; 128 + (c / 4096) mod 64; 128 + (c / 64) mod 64; 128 + c mod 64])%N.
Definition utf8s (s : str) : list N := flat_map utf8 s.
Definition octets (s : str) : nat := length (utf8s s).

Definition non_ascii (c : char) : bool := (128 <=? c)%N.

(** ** Folding *)

(** Unfolding (RFC 5545, section 3.1, with a bare line feed also accepted as a line break):
    a line break followed by one space or tab is dropped, anything else is kept. *)
Definition blank (c : char) : Prop := c = SP \/ c = TAB.
Definition fold_mark (s : str) : Prop :=
  exists c r, blank c /\ (s = CR :: LF :: c :: r \/ s = LF :: c :: r).
Inductive unfolds : str -> str -> Prop :=
| un_nil : unfolds [] []
| un_crlf : forall c r t, blank c -> unfolds r t -> unfolds (CR :: LF :: c :: r) t
| un_lf : forall c r t, blank c -> unfolds r t -> unfolds (LF :: c :: r) t
| un_keep : forall c r t, ~ fold_mark (c :: r) -> unfolds r t -> unfolds (c :: r) (c :: t).

(** No fold mark anywhere in a text. *)
Definition mark_free (s : str) : Prop := forall a b, s = a ++ b -> ~ fold_mark b.

(** A folded line: its pieces with CR LF SPACE between them. *)
Fixpoint join_fold (ps : list str) (last : str) : str :=
  match ps with [] => last | p :: r => p ++ [CR; LF; SP] ++ join_fold r last end.

(** Physical lines with CR LF between them. *)
Fixpoint join_lines (ls : list str) : str :=
  match ls with
  | [] => []
  | [l] => l
  | l :: r => l ++ [CR; LF] ++ join_lines r
  end.

(** ** TEXT values (RFC 5545, section 3.3.11) *)

(** The pieces of a TEXT value on the wire: a character that stands for itself, or a backslash and a
    character. *)
Inductive piece := Plain (c : char) | Escaped (c : char).
Definition wire_piece (p : piece) : str :=
  match p with Plain c => [c] | Escaped c => [BSL; c] end.
Definition wire (ps : list piece) : str := flat_map wire_piece ps.
(** [ESCAPED-CHAR]: one of [\\ \; \, \N \n] ([N] is 78, [n] is 110). *)
Definition rfc_piece (p : piece) : Prop :=
  match p with Plain c => c <> BSL | Escaped c => In c [BSL; SEMI; COMMA; 78%N; 110%N] end.
Definition decoded_piece (p : piece) : char :=
  match p with
  | Plain c => c
  | Escaped c => if (c =? 78)%N || (c =? 110)%N then LF else c
  end.
Definition decoded (ps : list piece) : str := map decoded_piece ps.

(** ** Value types (RFC 5545, section 8.3.4) *)
From Verif Require Import ValueTypes.

Definition registered : list (string * value_type) :=
  [("BINARY", Binary); ("BOOLEAN", Boolean); ("CAL-ADDRESS", CalAddress); ("DATE", Date);
   ("DATE-TIME", DateTime); ("DURATION", Duration); ("FLOAT", Float); ("INTEGER", Integer);
   ("PERIOD", Period); ("RECUR", Recur); ("TEXT", Text); ("TIME", Time); ("URI", Uri);
   ("UTC-OFFSET", UtcOffset)]%string.
