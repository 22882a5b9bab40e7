(** Model of batch-norm merging and moving:
    src/brevitas/nn/utils.py, src/brevitas/nn/quant_bn.py and
    src/brevitas/graph/fixed_point.py ([MergeBatchNorm], [MoveSplitBatchNormBeforeCat]).

    Real arithmetic (square roots occur).  Per-channel vectors are functions of the channel
    index; weights are functions of index tuples.  Weight and bias quantization of the merged
    layer is not part of this file (merge_bn only re-initialises the quantizers). *)
From Coq Require Import Reals List Bool Arith Lra Lia.
Import ListNotations.
Open Scope R_scope.

Definition vec := nat -> R.
Fixpoint Rsum (l : list R) : R := match l with [] => 0 | a :: l' => a + Rsum l' end.

(** A batch-norm module: running statistics, affine parameters, epsilon, training flag. *)
Record bn := BN { bn_mean : vec; bn_var : vec; bn_weight : vec; bn_bias : vec; bn_eps : R; bn_training : bool }.

(** torch.nn.BatchNorm in evaluation mode, channel [c], one element (external behaviour). *)
Definition bn_apply (b : bn) (c : nat) (x : R) : R :=
  (x - bn_mean b c) / sqrt (bn_var b c + bn_eps b) * bn_weight b c + bn_bias b c.

(** nn/utils.py L10-14 [mul_add_from_bn]. *)
Definition mul_add_from_bn (mean var : vec) (eps : R) (weight bias : vec) : vec * vec :=
  let denom := fun c => sqrt (var c + eps) in
  let mul_factor := fun c => weight c / denom c in
  let add_factor := fun c => - mean c * mul_factor c + bias c in
  (mul_factor, add_factor).

(** A layer with a weight tensor and an optional bias. *)
Record layer := Layer { l_weight : list nat -> R; l_bias : option vec }.

(** graph/utils.py L152-156 [get_output_channel_dim]. *)
Definition output_channel_dim (transposed : bool) : nat := if transposed then 1%nat else 0%nat.

(** nn/utils.py L17-34 [merge_bn]: the weight is multiplied along the output-channel
    dimension. *)
Definition merge_bn (l : layer) (b : bn) (output_channel_dim : nat) : layer :=
  let '(mul_factor, add_factor) := mul_add_from_bn (bn_mean b) (bn_var b) (bn_eps b) (bn_weight b) (bn_bias b) in
  Layer (fun idx => l_weight l idx * mul_factor (nth output_channel_dim idx 0%nat))
        (match l_bias l with
         | Some bs => Some (fun c => bs c * mul_factor c + add_factor c)
         | None => Some add_factor
         end).

Definition bias_at (l : layer) (c : nat) : R := match l_bias l with Some bs => bs c | None => 0 end.

(** torch linear / convolution / transposed convolution (external behaviour assumed), one
    output element.  Inputs are functions of the feature (linear) or of channel and position
    (convolution), zero outside [0, len). *)
Definition linear_fwd (l : layer) (n_in : nat) (x : nat -> R) (o : nat) : R :=
  Rsum (map (fun i => l_weight l [o; i] * x i) (seq 0 n_in)) + bias_at l o.

Definition zero_outside (len : Z) (x : nat -> Z -> R) (i : nat) (p : Z) : R :=
  if ((0 <=? p) && (p <? len))%Z then x i p else 0.

(** conv1d with [groups]: output channel o reads the input channels of its group. *)
Definition conv1d (l : layer) (in_per_group out_per_group k : nat) (stride pad dil len : Z)
    (x : nat -> Z -> R) (o : nat) (t : Z) : R :=
  Rsum (flat_map (fun i => map (fun j => l_weight l [o; i; j]
                              * zero_outside len x (o / out_per_group * in_per_group + i)%nat
                                  (t * stride - pad + dil * Z.of_nat j)) (seq 0 k)) (seq 0 in_per_group))
  + bias_at l o.

(** conv_transpose1d with groups = 1: output t collects x[i, s] * w[i, o, j] with
    s*stride - pad + dil*j = t. *)
Definition conv_transpose1d (l : layer) (n_in k : nat) (stride pad dil : Z) (len : nat)
    (x : nat -> Z -> R) (o : nat) (t : Z) : R :=
  Rsum (flat_map (fun i => flat_map (fun s => map (fun j =>
            if (Z.of_nat s * stride - pad + dil * Z.of_nat j =? t)%Z
            then l_weight l [i; o; j] * x i (Z.of_nat s) else l_weight l [i; o; j] * 0)
          (seq 0 k)) (seq 0 len)) (seq 0 n_in))
  + bias_at l o.

(** A batch norm seen as a layer with a one-dimensional weight (pattern BatchNorm, BatchNorm):
    merge_bn changes its weight and bias only. *)
Definition merge_bn_into_bn (b1 b2 : bn) : bn :=
  let l := merge_bn (Layer (fun idx => bn_weight b1 (nth 0 idx 0%nat)) (Some (bn_bias b1))) b2 (output_channel_dim false) in
  BN (bn_mean b1) (bn_var b1) (fun c => l_weight l [c]) (fun c => bias_at l c) (bn_eps b1) (bn_training b1).

(** graph/fixed_point.py L109-123 [MergeBatchNorm.is_converged] on a chain of batch norms
    behind one layer: one traversal merges them from the front. *)
Definition merge_chain (l : layer) (bns : list bn) (d : nat) : layer := fold_left (fun l b => merge_bn l b d) bns l.

(** nn/quant_bn.py L21-45 [_BatchNormToQuantScaleBias._load_from_state_dict] followed by
    nn/quant_scale_bias.py L79-93 (unquantized): input * weight + bias. *)
Definition scale_bias_from_bn (b : bn) (c : nat) (x : R) : R :=
  let '(w, bias) := mul_add_from_bn (bn_mean b) (bn_var b) (bn_eps b) (bn_weight b) (bn_bias b) in
  x * w c + bias c.

(** The default epsilon and training flag of a new torch.nn.BatchNorm. *)
Definition default_eps : R := / 100000.

(** graph/fixed_point.py L60-75: the batch norm for operand i, [type(module)(n)] with sliced
    parameters; epsilon and training flag are those of a new module. *)
Definition chunk_bn (b : bn) (start : nat) : bn :=
  BN (fun c => bn_mean b (start + c)%nat) (fun c => bn_var b (start + c)%nat)
     (fun c => bn_weight b (start + c)%nat) (fun c => bn_bias b (start + c)%nat) default_eps true.

(** Application of a batch norm to the channels of a tensor (one value per channel), in
    evaluation mode. *)
Fixpoint bn_channels (b : bn) (c : nat) (xs : list R) : list R :=
  match xs with [] => [] | x :: xs' => bn_apply b c x :: bn_channels b (S c) xs' end.

(** Before: concatenate, then normalise. *)
Definition cat_then_bn (b : bn) (xs : list (list R)) : list R := bn_channels b 0 (concat xs).
(** After: L61-62, start_i = sum(num_features_list[:i]). *)
Fixpoint split_bns (b : bn) (start : nat) (xs : list (list R)) : list (list R) :=
  match xs with
  | [] => []
  | x :: xs' => bn_channels (chunk_bn b start) 0 x :: split_bns b (start + length x) xs'
  end.
Definition bn_then_cat (b : bn) (xs : list (list R)) : list R := concat (split_bns b 0 xs).
