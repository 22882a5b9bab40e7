(** Model of the state-dict rewriting code: src/brevitas/nn/utils.py L43-60 (renaming),
    src/brevitas/nn/quant_rnn.py L861-877 (recurrent stack), with Python dictionaries as
    association lists in insertion order and keys as strings. *)
From Coq Require Import List Bool String Ascii Arith Lia.
Import ListNotations.
Open Scope string_scope.

Section Dict.
  Context {V : Type}.
  Definition dict := list (string * V).
  Fixpoint get (d : dict) (key : string) : option V :=
    match d with [] => None | (a, v) :: d' => if String.eqb a key then Some v else get d' key end.
  (** [d[key] = v]: in place if present, otherwise appended. *)
  Fixpoint set (d : dict) (key : string) (v : V) : dict :=
    match d with
    | [] => [(key, v)]
    | (a, u) :: d' => if String.eqb a key then (a, v) :: d' else (a, u) :: set d' key v
    end.
  Definition without (d : dict) (key : string) : dict := filter (fun e => negb (String.eqb (fst e) key)) d.
  (** [d.pop(key)] / [del d[key]]; [None] is KeyError. *)
  Definition pop (d : dict) (key : string) : option (V * dict) :=
    match get d key with Some v => Some (v, without d key) | None => None end.
  Definition keys (d : dict) : list string := map fst d.
End Dict.
Arguments dict V : clear implicits.

(** ** String functions *)
Fixpoint drop (m : nat) (s : string) : string :=
  match m, s with S m', String _ s' => drop m' s' | _, _ => s end.
Fixpoint take (m : nat) (s : string) : string :=
  match m, s with S m', String c s' => String c (take m' s') | _, _ => "" end.
Definition startswith (s p : string) : bool := String.eqb (take (length p) s) p && (Nat.leb (length p) (length s)).
Definition endswith (s p : string) : bool := String.eqb (drop (length s - length p) s) p && (Nat.leb (length p) (length s)).
(** [sub in s] *)
Fixpoint contains (sub s : string) : bool :=
  startswith s sub || match s with EmptyString => false | String _ s' => contains sub s' end.

(** ** rename_state_dict_by_prefix / by_postfix, nn/utils.py L43-60: the key map is computed first,
    then each key is popped and re-inserted, in order. *)
Fixpoint move_keys {V} (km : list (string * string)) (d : dict V) : option (dict V) :=
  match km with
  | [] => Some d
  | (o, nw) :: km' => match pop d o with Some (v, d') => move_keys km' (set d' nw v) | None => None end
  end.
Definition prefix_map {V} (old new : string) (d : dict V) : list (string * string) :=
  map (fun key => (key, new ++ drop (length old) key)) (filter (fun key => startswith key old) (keys d)).
Definition rename_by_prefix {V} (old new : string) (d : dict V) : option (dict V) := move_keys (prefix_map old new d) d.
Definition postfix_map {V} (old new : string) (d : dict V) : list (string * string) :=
  map (fun key => (key, take (length key - length old) key ++ new)) (filter (fun key => endswith key old) (keys d)).
Definition rename_by_postfix {V} (old new : string) (d : dict V) : option (dict V) := move_keys (postfix_map old new d) d.

(** ** QuantRecurrentStackBase._load_from_state_dict, nn/quant_rnn.py L861-877.
    [str_of] is Python's decimal formatting of the layer index. *)
Definition digit (m : nat) : string := String (ascii_of_nat (48 + m)) "".
Fixpoint str_of_fuel (fuel m : nat) : string :=
  match fuel with
  | 0 => ""
  | S fuel' => if Nat.ltb m 10 then digit m else str_of_fuel fuel' (m / 10) ++ digit (m mod 10)
  end.
Definition str_of (m : nat) : string := str_of_fuel (S m) m.

Definition cut (name : string) (a b : nat) : string := take (length name - b - a) (drop a name).
Fixpoint stack_indices {V} (pfx name : string) (v : V) (idxs : list nat) (d : dict V) : option (dict V) :=
  match idxs with
  | [] => Some d
  | i :: idxs' =>
      let layer_name := "_l" ++ str_of i in
      let reverse_layer_name := layer_name ++ "_reverse" in
      if contains reverse_layer_name name then
        match pop (set d (pfx ++ "layers." ++ str_of i ++ ".1." ++ cut name (length pfx) (length reverse_layer_name)) v) name with
        | Some (_, d') => stack_indices pfx name v idxs' d'
        | None => None
        end
      else if contains layer_name name then
        match pop (set d (pfx ++ "layers." ++ str_of i ++ ".0." ++ cut name (length pfx) (length layer_name)) v) name with
        | Some (_, d') => stack_indices pfx name v idxs' d'
        | None => None
        end
      else stack_indices pfx name v idxs' d
  end.
Fixpoint stack_names {V} (pfx : string) (layers : nat) (items : list (string * V)) (d : dict V) : option (dict V) :=
  match items with
  | [] => Some d
  | (name, v) :: items' =>
      match stack_indices pfx name v (seq 0 layers) d with
      | Some d' => stack_names pfx layers items' d'
      | None => None
      end
  end.
Definition stack_load {V} (pfx : string) (layers : nat) (d : dict V) : option (dict V) := stack_names pfx layers d d.
