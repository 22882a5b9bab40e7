(** Model of the statistics of weights and activations per tensor and per output channel:
    src/brevitas/core/function_wrapper/shape.py [PermuteDims], [OverTensorView],
    [OverOutputChannelView]; src/brevitas/function/shape.py; src/brevitas/core/stats/
    view_wrapper.py and stats_wrapper.py [_Stats], [_ParameterListStats];
    src/brevitas/quant/solver/weight.py and common.py (shapes and dimensions).

    Tensors as in Groupwise.v.  [stat] is the reduction of one row (stats_op.py), arbitrary
    here.  Restriction and thresholds are applied element-wise afterwards (Scaling.v). *)
From Verif Require Import QUtil Groupwise.
Open Scope Q_scope.

(** torch.Tensor.permute (external behaviour assumed): dimension j of the result is dimension
    [nth j dims] of the input. *)
Fixpoint index_of (d : nat) (dims : list nat) : nat :=
  match dims with [] => O | e :: r => if Nat.eqb e d then O else S (index_of d r) end.
Definition permute (dims : list nat) (x : tens) : tens :=
  T (map (fun d => nth d (shape x) 0%Z) dims)
    (fun idx => at_ x (map (fun d => nth (index_of d dims) idx 0%Z) (seq 0 (length (shape x))))).

(** quant/solver/weight.py L74-84 [permute_dims]. *)
Definition permute_dims (ndim output_channel_dim : nat) : option (list nat) :=
  if Nat.eqb output_channel_dim 0 then None
  else
    let dims := seq 0 ndim in
    let a := nth output_channel_dim dims O in
    let b := nth 0 dims O in
    Some (set_nth output_channel_dim b (set_nth 0 a dims)).

(** function/shape.py L24-39 [over_tensor], core/function_wrapper/shape.py L33-50
    [OverTensorView]: reshape(-1). *)
Definition over_tensor_view (x : tens) : option tens := view x [prodZ (shape x)].

(** function/shape.py L42-58 [over_output_channels], core/function_wrapper/shape.py L53-76
    [OverOutputChannelView]: reshape((shape[0], -1)); torch cannot infer the size when
    shape[0] is zero. *)
Definition over_output_channels_view (permute_dims : option (list nat)) (x : tens) : option tens :=
  let y := match permute_dims with Some dims => permute dims x | None => x end in
  match shape y with
  | [] => None
  | n0 :: _ => if (n0 =? 0)%Z then None else view y [n0; (prodZ (shape y) / n0)%Z]
  end.

(** torch.cat of two tensors (external behaviour assumed): equal sizes except along [d]. *)
Definition cat (d : nat) (a b : tens) : option tens :=
  if (length (shape a) =? length (shape b))%nat
     && forallb (fun j => (j =? d)%nat || (nth j (shape a) 0 =? nth j (shape b) 0)%Z) (seq 0 (length (shape a)))
  then
    let n := nth d (shape a) 0%Z in
    Some (T (set_nth d (n + nth d (shape b) 0)%Z (shape a))
            (fun idx => if (nth d idx 0 <? n)%Z then at_ a idx else at_ b (set_nth d (nth d idx 0 - n)%Z idx)))
  else None.

(** stats_wrapper.py L86-118 [_ParameterListStats]: the first parameter is viewed, then each
    further one is viewed and concatenated in front (view_wrapper.py L42-54
    [_ViewCatParameterWrapper]). *)
Definition stats_input (view_impl : tens -> option tens) (concat_dim : nat) (params : list tens) : option tens :=
  match params with
  | [] => None
  | p :: extra =>
      fold_left (fun acc p => obind acc (fun x => obind (view_impl p) (fun v => cat concat_dim v x))) extra (view_impl p)
  end.

Definition zrange (n : Z) : list Z := map Z.of_nat (seq 0 (Z.to_nat n)).

(** stats_op.py with stats_reduce_dim None on a flat tensor, and with stats_reduce_dim 1 on a
    matrix. *)
Definition reduce_all (stat : list Q -> Q) (x : tens) : tens :=
  T [] (fun _ => stat (map (fun r => at_ x [r]) (zrange (nth 0 (shape x) 0%Z)))).
Definition row (x : tens) (c : Z) : list Q := map (fun r => at_ x [c; r]) (zrange (nth 1 (shape x) 0%Z)).
Definition reduce_rows (stat : list Q -> Q) (x : tens) : tens :=
  T [nth 0 (shape x) 0%Z] (fun idx => stat (row x (nth 0 idx 0%Z))).
(** stats_op.py L207-216 [AbsMaxAve]: the mean of the row statistics. *)
Definition Qsum (l : list Q) : Q := fold_right Qplus 0 l.
Definition mean_rows (stat : list Q -> Q) (x : tens) : tens :=
  T [] (fun _ => Qsum (map (fun c => stat (row x c)) (zrange (nth 0 (shape x) 0%Z))) / inject_Z (nth 0 (shape x) 0%Z)).

Inductive per_output := PerTensor | PerChannel.
Inductive stats_op := RowStat (stat : list Q -> Q) | MaxAve (stat : list Q -> Q).

(** weight.py L54-58 [scaling_per_output_channel_shape]. *)
Definition channel_shape (ndim output_channel_dim : nat) (out_channels : Z) : list Z :=
  set_nth output_channel_dim out_channels (repeat 1%Z ndim).

(** The statistic of a weight quantizer shared by layers with the given weights:
    solver/common.py L175-181 [stats_reduce_dim], L202-209
    [scaling_stats_input_view_shape_impl], weight.py L66-71 [scaling_stats_input_concat_dim],
    parameter.py [scaling_shape], stats_wrapper.py L31-35 [_Stats.forward].  All layers must
    agree on [out_channels] and on the number of dimensions (asserts of weight.py). *)
Definition weight_stats (op : stats_op) (po : per_output) (output_channel_dim : nat) (out_channels : Z) (ws : list tens) : option tens :=
  match ws with
  | [] => None
  | w :: _ =>
      let ndim := length (shape w) in
      if negb (forallb (fun m => Nat.eqb (length (shape m)) ndim) ws) then None else
      let pd := permute_dims ndim output_channel_dim in
      let over_channels := match op, po with RowStat _, PerTensor => false | _, _ => true end in
      let view_impl := if over_channels then over_output_channels_view pd else over_tensor_view in
      let concat_dim := match po with PerTensor => 0%nat | PerChannel => 1%nat end in
      obind (stats_input view_impl concat_dim ws) (fun x =>
      let st := match op with
                | RowStat f => if over_channels then reduce_rows f x else reduce_all f x
                | MaxAve f => mean_rows f x
                end in
      view st (match po with PerTensor => [] | PerChannel => channel_shape ndim output_channel_dim out_channels end))
  end.

(** An activation quantizer: the permutation is given by the user
    (scaling_stats_permute_dims), as is the shape (per_channel_broadcastable_shape). *)
Definition act_stats (stat : list Q -> Q) (permute_dims : option (list nat)) (scaling_shape : list Z) (x : tens) : option tens :=
  obind (over_output_channels_view permute_dims x) (fun v => view (reduce_rows stat v) scaling_shape).

(** Element read by torch broadcasting of [sc] against an index of the quantized tensor: a
    scalar everywhere, otherwise position 0 along dimensions of size 1. *)
Definition bcast (sc : tens) (idx : list Z) : Q :=
  match shape sc with
  | [] => at_ sc []
  | _ => at_ sc (map (fun p => if (fst p =? 1)%Z then 0%Z else snd p) (combine (shape sc) idx))
  end.
