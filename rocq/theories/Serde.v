(** The feature [serde]: the implementations derived for the parser's types (src/parser/calendar.rs:8,
    components.rs:37, properties.rs:47, parameters.rs:19, parsed_string.rs:7), used with serde_json as in
    examples/ical_to_json.rs and examples/json_to_ical.rs.  Modelled on the values JSON texts stand for. *)
From Verif Require Import Str ValueTypes Property Component Calendar Nom Parser.

(** JSON values; the entries of an object are in the order of the text and may repeat. *)
Inductive json := JNull | JBool (b : bool) | JNum (text : str) | JStr (s : str)
| JArr (l : list json) | JObj (m : list (str * json)).

(** ** [Serialize]: fields in the order of their declaration, [None] as null, [ParseString] as its string. *)
Definition ser_param (q : pparam) : json :=
  JObj [(lit "key", JStr (pp_key q)); (lit "val", match pp_val q with Some v => JStr v | None => JNull end)].
Definition ser_prop (p : pprop) : json :=
  JObj [(lit "name", JStr (pr_name p)); (lit "val", JStr (pr_val p)); (lit "params", JArr (map ser_param (pr_params p)))].
Fixpoint ser_comp (c : pcomp) : json :=
  match c with
  | mk_pcomp n ps cs => JObj [(lit "name", JStr n); (lit "properties", JArr (map ser_prop ps)); (lit "components", JArr (map ser_comp cs))]
  end.
Definition ser_cal (c : pcal) : json :=
  JObj [(lit "properties", JArr (map ser_prop (pcal_props c))); (lit "components", JArr (map ser_comp (pcal_comps c)))].

(** ** [Deserialize]: structures from objects (unknown fields are ignored, a field that occurs twice or is missing is an
    error, except that a missing [Option] is [None]) or from arrays of exactly their fields.  [n] is the number of
    levels of arrays and objects that may still be entered. *)
Inductive field := Missing | Twice | Once (v : json).
Definition get_field (k : str) (m : list (str * json)) : field :=
  match filter (fun e => str_eqb (fst e) k) m with [] => Missing | [e] => Once (snd e) | _ => Twice end.
Definition de_str (v : json) : option str := match v with JStr s => Some s | _ => None end.
Definition de_opt (v : json) : option (option str) :=
  match v with JNull => Some None | _ => option_map Some (de_str v) end.
Fixpoint de_all {A} (f : json -> option A) (l : list json) : option (list A) :=
  match l with
  | [] => Some []
  | v :: r => match f v, de_all f r with Some a, Some x => Some (a :: x) | _, _ => None end
  end.
Definition de_vec {A} (f : nat -> json -> option A) (n : nat) (v : json) : option (list A) :=
  match n, v with S n', JArr l => de_all (f n') l | _, _ => None end.
Definition required {A} (f : json -> option A) (x : field) : option A := match x with Once v => f v | _ => None end.
Definition optional (x : field) : option (option str) :=
  match x with Once v => de_opt v | Missing => Some None | Twice => None end.

Definition de_param (n : nat) (v : json) : option pparam :=
  match n with
  | O => None
  | S _ =>
      match v with
      | JObj m => match required de_str (get_field (lit "key") m), optional (get_field (lit "val") m) with
                  | Some k, Some x => Some (mk_pparam k x) | _, _ => None end
      | JArr [a; b] => match de_str a, de_opt b with Some k, Some x => Some (mk_pparam k x) | _, _ => None end
      | _ => None
      end
  end.
Definition de_prop (n : nat) (v : json) : option pprop :=
  match n with
  | O => None
  | S n' =>
      match v with
      | JObj m => match required de_str (get_field (lit "name") m), required de_str (get_field (lit "val") m),
                        required (de_vec de_param n') (get_field (lit "params") m) with
                  | Some k, Some x, Some ps => Some (mk_pprop k x ps) | _, _, _ => None end
      | JArr [a; b; c] => match de_str a, de_str b, de_vec de_param n' c with
                          | Some k, Some x, Some ps => Some (mk_pprop k x ps) | _, _, _ => None end
      | _ => None
      end
  end.
Fixpoint de_comp (n : nat) (v : json) : option pcomp :=
  match n with
  | O => None
  | S n' =>
      let comps x := match n', x with S n'', JArr l => de_all (de_comp n'') l | _, _ => None end in
      match v with
      | JObj m => match required de_str (get_field (lit "name") m), required (de_vec de_prop n') (get_field (lit "properties") m),
                        required comps (get_field (lit "components") m) with
                  | Some k, Some ps, Some cs => Some (mk_pcomp k ps cs) | _, _, _ => None end
      | JArr [a; b; c] => match de_str a, de_vec de_prop n' b, comps c with
                          | Some k, Some ps, Some cs => Some (mk_pcomp k ps cs) | _, _, _ => None end
      | _ => None
      end
  end.
Definition de_cal (n : nat) (v : json) : option pcal :=
  match n with
  | O => None
  | S n' =>
      match v with
      | JObj m => match required (de_vec de_prop n') (get_field (lit "properties") m),
                        required (de_vec de_comp n') (get_field (lit "components") m) with
                  | Some ps, Some cs => Some (mk_pcal ps cs) | _, _ => None end
      | JArr [a; b] => match de_vec de_prop n' a, de_vec de_comp n' b with
                       | Some ps, Some cs => Some (mk_pcal ps cs) | _, _ => None end
      | _ => None
      end
  end.
(** [serde_json::from_str]: its limit of 128 levels is checked when it is reached. *)
Definition json_levels : nat := 127.
Definition cal_from_json (v : json) : option pcal := de_cal json_levels v.
