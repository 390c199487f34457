(** TEXT escaping and parameter quoting (src/properties.rs) and TEXT unescaping
    (src/parser/parsed_string.rs). *)
From Verif Require Import Str.

(** [Property::escape_text], src/properties.rs:157-163. *)
Definition escape_text (s : str) : str :=
  replace_char LF [BSL; 78%N]
    (replace_char SEMI [BSL; SEMI]
      (replace_char COMMA [BSL; COMMA]
        (replace_char BSL [BSL; BSL] s))).

(** [Property::quote_if_contains_colon], src/properties.rs:165-175. *)
Definition quote_if_contains_colon (s : str) : str :=
  if existsb (fun c => (c =? COLON)%N || (c =? SEMI)%N) s then DQ :: s ++ [DQ] else s.

(** [ParseString::unescape_text], src/parser/parsed_string.rs:38-57
    ([N] is 78, [n] is 110). *)
Definition unescape_text (s : str) : str :=
  if contains [BSL; BSL] s || contains [BSL; COMMA] s || contains [BSL; SEMI] s
     || contains [BSL; COLON] s || contains [BSL; 78%N] s || contains [BSL; 110%N] s
  then replace [BSL; 110%N] [LF]
         (replace [BSL; 78%N] [LF]
           (replace [BSL; COLON] [COLON]
             (replace [BSL; SEMI] [SEMI]
               (replace [BSL; COMMA] [COMMA]
                 (replace [BSL; BSL] [BSL] s)))))
  else s.
