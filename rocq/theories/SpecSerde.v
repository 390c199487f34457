(** JSON values of parsed calendars: specification. *)
From Verif Require Import Str ValueTypes Property Component Calendar Nom Parser Serde.

(** An object with exactly one entry for [k], or with none. *)
Definition has_entry (m : list (str * json)) (k : str) (v : json) : Prop :=
  exists a b, m = a ++ (k, v) :: b /\ ~ In k (map fst a) /\ ~ In k (map fst b).
Definition no_entry (m : list (str * json)) (k : str) : Prop := ~ In k (map fst m).
(** What a value stands for; [n] bounds the levels of arrays and objects. *)
Inductive opt_json : json -> option str -> Prop :=
| oj_null : opt_json JNull None
| oj_some : forall s, opt_json (JStr s) (Some s).
Inductive list_json {A} (R : nat -> json -> A -> Prop) : nat -> json -> list A -> Prop :=
| lj : forall n l x, Forall2 (R n) l x -> list_json R (S n) (JArr l) x.
Inductive param_json : nat -> json -> pparam -> Prop :=
| pj_object : forall n m k v x, has_entry m (lit "key") (JStr k) -> has_entry m (lit "val") v -> opt_json v x ->
    param_json (S n) (JObj m) (mk_pparam k x)
| pj_short : forall n m k, has_entry m (lit "key") (JStr k) -> no_entry m (lit "val") -> param_json (S n) (JObj m) (mk_pparam k None)
| pj_array : forall n k v x, opt_json v x -> param_json (S n) (JArr [JStr k; v]) (mk_pparam k x).
Inductive prop_json : nat -> json -> pprop -> Prop :=
| rj_object : forall n m k v a ps, has_entry m (lit "name") (JStr k) -> has_entry m (lit "val") (JStr v) -> has_entry m (lit "params") a ->
    list_json param_json n a ps -> prop_json (S n) (JObj m) (mk_pprop k v ps)
| rj_array : forall n k v a ps, list_json param_json n a ps -> prop_json (S n) (JArr [JStr k; JStr v; a]) (mk_pprop k v ps).
Inductive comp_json : nat -> json -> pcomp -> Prop :=
| cj_object : forall n m k a ps l cs, has_entry m (lit "name") (JStr k) -> has_entry m (lit "properties") a ->
    has_entry m (lit "components") (JArr l) -> list_json prop_json (S n) a ps -> Forall2 (comp_json n) l cs ->
    comp_json (S (S n)) (JObj m) (mk_pcomp k ps cs)
| cj_array : forall n k a ps l cs, list_json prop_json (S n) a ps -> Forall2 (comp_json n) l cs ->
    comp_json (S (S n)) (JArr [JStr k; a; JArr l]) (mk_pcomp k ps cs).
Inductive cal_json : nat -> json -> pcal -> Prop :=
| kj_object : forall n m a ps b cs, has_entry m (lit "properties") a -> has_entry m (lit "components") b ->
    list_json prop_json n a ps -> list_json comp_json n b cs -> cal_json (S n) (JObj m) (mk_pcal ps cs)
| kj_array : forall n a ps b cs, list_json prop_json n a ps -> list_json comp_json n b cs -> cal_json (S n) (JArr [a; b]) (mk_pcal ps cs).

(** The levels of arrays and objects in a value. *)
Fixpoint json_depth (v : json) : nat :=
  match v with
  | JArr l => S (fold_right (fun x d => Nat.max (json_depth x) d) 0 l)
  | JObj m => S (fold_right (fun e d => Nat.max (json_depth (snd e)) d) 0 m)
  | _ => 0
  end.
(** The levels of nested components. *)
Fixpoint comp_depth (c : pcomp) : nat :=
  match c with mk_pcomp _ _ cs => S (fold_right (fun x d => Nat.max (comp_depth x) d) 0 cs) end.
(** One component in another, [n] deep. *)
Fixpoint nested (n : nat) : pcomp := match n with O => mk_pcomp (lit "X") [] [] | S k => mk_pcomp (lit "X") [] [nested k] end.
