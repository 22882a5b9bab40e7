(** Model of the layers standing in for a batch norm:
    src/brevitas/nn/quant_scale_bias.py, src/brevitas/nn/quant_bn.py,
    src/brevitas/nn/utils.py [mul_add_from_bn].

    Real arithmetic (square roots occur).  Tensors are a shape and a function of the index;
    broadcasting is that of [SliceWeight].  The input and the output are not quantized and the
    input is a plain tensor; the weight and bias quantizers are arbitrary functions on vectors.
    dtype, device and the entries of the quantizers in a checkpoint are left out. *)
From Coq Require Import Reals List Bool Arith Lia.
From Verif Require Import SliceWeight.
Import ListNotations.
Open Scope R_scope.

Record rten := RT { rshape : list nat; rat : list nat -> R }.

(** An elementwise operation of two tensors with broadcasting; None for a RuntimeError. *)
Definition bop (f : R -> R -> R) (a b : rten) : option rten :=
  match bshape (rshape a) (rshape b) with
  | Some sh => Some (RT sh (fun idx => f (rat a (bindex (rshape a) idx)) (rat b (bindex (rshape b) idx))))
  | None => None
  end.
(** The in-place [out += b]: the result has the shape of [out]. *)
Definition iop (f : R -> R -> R) (a b : rten) : option rten :=
  match bop f a b with
  | Some c => if list_eq_dec Nat.eq_dec (rshape c) (rshape a) then Some c else None
  | None => None
  end.

(** [v.view(runtime_shape)] of a vector; [runtime_shape] consists of ones and one -1, at
    position [pos] of [rank]. *)
Record rtshape := Rt { rt_rank : nat; rt_pos : nat }.
Definition view_vec (r : rtshape) (v : list R) : rten :=
  RT (repeat 1%nat (rt_pos r) ++ length v :: repeat 1%nat (rt_rank r - 1 - rt_pos r)) (fun idx => nth (nth (rt_pos r) idx 0%nat) v 0).
Definition shape_4d : rtshape := Rt 4 1.   (* (1, -1, 1, 1) *)
Definition shape_3d : rtshape := Rt 3 1.   (* (1, -1, 1) *)

(** quant_scale_bias.py L26-31 [ScaleBias.__init__]. *)
Record sbias := SB { sb_weight : list R; sb_bias : option (list R); sb_shape : rtshape }.
Definition scale_bias_init (n : nat) (bias : bool) (runtime_shape : rtshape) : sbias :=
  SB (repeat 1 n) (if bias then Some (repeat 0 n) else None) runtime_shape.

(** quant_scale_bias.py L33-37 [ScaleBias.forward]: [if self.bias] raises on a vector with more
    than one element, and is false for an empty one (with a warning) and for a single zero. *)
Definition scale_bias_forward (l : sbias) (x : rten) : option rten :=
  match bop Rmult x (view_vec (sb_shape l) (sb_weight l)) with
  | None => None
  | Some out =>
      match sb_bias l with
      | None => Some out
      | Some [] => Some out
      | Some [b] => if Req_EM_T b 0 then Some out else iop Rplus out (view_vec (sb_shape l) [b])
      | Some _ => None
      end
  end.

(** quant_scale_bias.py L42-60 [QuantScaleBias.__init__]: [ScaleBias.__init__(self, num_features,
    bias)]; a runtime_shape in the keyword arguments is not passed on. *)
Definition quant_scale_bias_init (n : nat) (bias : bool) (kwarg_runtime_shape : option rtshape) : sbias :=
  scale_bias_init n bias shape_4d.

(** quant_layer.py L135-161 [forward_impl] and quant_scale_bias.py L81-97
    [inner_forward_impl]: without a bias [quant_bias] is None and [.view] raises. *)
Definition quant_scale_bias_forward (wq bq : list R -> list R) (l : sbias) (x : rten) : option rten :=
  match sb_bias l with
  | None => None
  | Some b =>
      match bop Rmult x (view_vec (sb_shape l) (wq (sb_weight l))) with
      | None => None
      | Some out => iop Rplus out (view_vec (sb_shape l) (bq b))
      end
  end.

(** quant_bn.py L51-73 [BatchNorm1dToQuantScaleBias], L76-98 [BatchNorm2dToQuantScaleBias]. *)
Record bnlayer := BL { bl_sb : sbias; bl_eps : R }.
Definition bn1d_init (n : nat) (eps : R) : bnlayer := BL (quant_scale_bias_init n true (Some shape_3d)) eps.
Definition bn2d_init (n : nat) (eps : R) : bnlayer := BL (quant_scale_bias_init n true (Some shape_4d)) eps.

(** nn/utils.py L10-14 [mul_add_from_bn] on vectors of one length; None when they differ. *)
Fixpoint mul_add (mean var : list R) (eps : R) (weight bias : list R) : option (list R * list R) :=
  match mean, var, weight, bias with
  | [], [], [], [] => Some ([], [])
  | m :: mean', v :: var', w :: weight', b :: bias' =>
      match mul_add mean' var' eps weight' bias' with
      | Some (ms, bs) => let f := w / sqrt (v + eps) in Some (f :: ms, (- m * f + b) :: bs)
      | None => None
      end
  | _, _, _, _ => None
  end.

(** The entries of a checkpoint under the prefix of the layer. *)
Record ckpt := Ck { k_weight : option (list R); k_bias : option (list R); k_mean : option (list R); k_var : option (list R); k_tracked : bool }.

Inductive outcome := Returned | Raised.

(** The copy of one entry by torch: None for a size mismatch; the flag says it is missing. *)
Definition copy_entry (old : list R) (e : option (list R)) : option (list R * bool) :=
  match e with
  | None => Some (old, true)
  | Some v => if Nat.eqb (length v) (length old) then Some (v, false) else None
  end.

(** quant_bn.py L19-47 [_load_from_state_dict] inside [load_state_dict(ckpt, strict)]. The layer
    is returned as it is afterwards, also when an exception is raised. *)
Definition load_bn (ignore_missing strict : bool) (l : bnlayer) (c : ckpt) : bnlayer * outcome :=
  let s := bl_sb l in
  let set w b := BL (SB w (Some b) (sb_shape s)) (bl_eps l) in
  let finish l' missing unexpected :=
    (l', if strict && (missing && negb ignore_missing || unexpected) then Raised else Returned) in
  match k_mean c, k_var c with
  | Some mean, Some var =>
      match k_bias c, k_weight c with
      | Some b, Some w =>
          match mul_add mean var (bl_eps l) w b with
          | None => (l, Raised)
          | Some (w', b') =>
              (* the entries are deleted, so weight and bias are missing for the parent class *)
              if k_tracked c then finish (set w' b') true false
              else (set w' b', Raised)      (* KeyError: num_batches_tracked *)
          end
      | _, _ => (l, Raised)                 (* KeyError *)
      end
  | m, v =>
      let unexpected := match m, v with None, None => false | _, _ => true end in
      let old_b := match sb_bias s with Some b => b | None => [] end in
      match copy_entry (sb_weight s) (k_weight c), copy_entry old_b (k_bias c) with
      | Some (w, mw), Some (b, mb) => finish (set w b) (mw || mb) unexpected
      | Some (w, _), None => (set w old_b, Raised)
      | None, Some (b, _) => (set (sb_weight s) b, Raised)
      | None, None => (l, Raised)
      end
  end.
