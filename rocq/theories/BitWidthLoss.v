(** Model of src/brevitas/loss/weighted_bit_width.py.
    The hooked modules are given by the calls the hooks observe during forward passes: one
    [call] per execution of a hooked module.  Bit widths are rationals (learned ones are integral
    after rounding; nothing below needs it). *)
From Coq Require Import QArith ZArith List Bool.
Import ListNotations.
Local Open Scope Q_scope.

(** [reduce(mul, size, 1)] *)
Definition numel (size : list Z) : Z := fold_left Z.mul size 1%Z.

(** What a hook sees: the size of the output, its bit width, the per_elem_ops of the module, and
    whether the output is a quantized tensor. *)
Record call := Call { size : list Z; bw : Q; per_elem_ops : Z; is_quant : bool }.

(** L24-28, L34-38: accumulated state. *)
Record acc := Acc { weighted : list Q; tot : Q }.
Definition zero_accumulated_values : acc := Acc [] 0.

(** L18 *)
Definition MEGA : Q := inject_Z 10000000.

Inductive kind := WeightBySize | ActBySize | OutputByOps.

(** The number a call is weighted with: L64, L82, L102-103. *)
Definition weight_of (k : kind) (c : call) : Q :=
  match k with
  | WeightBySize => inject_Z (numel (size c))
  | ActBySize => inject_Z (numel (tl (size c)))
  | OutputByOps => inject_Z (numel (tl (size c))) * inject_Z (per_elem_ops c) / MEGA
  end.

(** The hook functions: L63-66, L81-84, L100-105. *)
Definition hook (k : kind) (a : acc) (c : call) : acc :=
  let record := Acc (weighted a ++ [weight_of k c * bw c]) (tot a + weight_of k c) in
  match k with
  | OutputByOps => if is_quant c then record else a
  | _ => record
  end.

(** A sequence of executions of hooked modules. *)
Definition forward_passes (k : kind) (a : acc) (cs : list call) : acc := fold_left (hook k) cs a.

Definition qsum (l : list Q) : Q := fold_left Qplus l 0.

(** L40-49; None is the exception. *)
Definition guard (a : acc) : bool :=
  negb (Qeq_bool (tot a) 0) && match weighted a with [] => false | _ => true end.
Definition retrieve_average (a : acc) : option Q :=
  if guard a then Some (qsum (weighted a) / tot a) else None.
Definition retrieve_list (a : acc) : option (list Q) :=
  if guard a then Some (map (fun b => b / tot a) (weighted a)) else None.
