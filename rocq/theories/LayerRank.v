(** Model of the linear layers on quantized tensors of any rank: the handlers of
    src/brevitas/quant_tensor/int_torch_handler.py (L140-237), the bias proxy of
    src/brevitas/proxy/parameter_quant.py (L307-362) and the packing of layer outputs in
    src/brevitas/nn/quant_layer.py (L135-161) and src/brevitas/nn/mixin/base.py (L99-104).

    Tensors, slices and broadcasting are those of SliceWeight.v, the arithmetic is exact.  The
    linear operation is a list of products for every output position, see [linop]; dtype, device
    and training flags are left out.  Linear.v models the same handlers for one row of a
    two-dimensional input. *)
From Coq Require Import ZArith QArith List Bool Lia Arith.
From Verif Require Import QUtil Ops Gpxq QuantTensor Linear SliceWeight.
Import ListNotations.
Open Scope nat_scope.

(** All indices of a shape. *)
Fixpoint all_idx (sh : list nat) : list (list nat) :=
  match sh with [] => [[]] | d :: r => flat_map (fun i => map (cons i) (all_idx r)) (seq 0 d) end.
Definition numel (t : tens) : nat := prod (shape t).

(** ** Views *)

(** Python indexing of a list of [rank] elements; None for an IndexError. *)
Definition py_index (rank : nat) (dim : Z) : option nat :=
  if (0 <=? dim)%Z && (dim <? Z.of_nat rank)%Z then Some (Z.to_nat dim)
  else if (dim <? 0)%Z && (- Z.of_nat rank <=? dim)%Z then Some (Z.to_nat (Z.of_nat rank + dim))
  else None.
(** [t.view(compute_channel_view_shape(x, channel_dim))] (utils/torch_utils.py L88-91) with [x] of
    rank [rank]: all elements along dimension [channel_dim]. *)
Definition channel_view (rank : nat) (channel_dim : Z) (t : tens) : option tens :=
  match py_index rank channel_dim with
  | Some d => Some (T (repeat 1 d ++ numel t :: repeat 1 (rank - 1 - d))
                      (fun idx => at_ t (index_nd (shape t) (nth d idx 0))))
  | None => None
  end.
(** [t.view(-1)]. *)
Definition flat_view (t : tens) : tens := T [numel t] (fun idx => at_ t (index_nd (shape t) (nth 0 idx 0))).

(** torch.allclose of tensors, which broadcasts them; None when they do not broadcast. *)
Definition allclose_t (a b : tens) : option bool :=
  match bshape (shape a) (shape b) with
  | Some sh => Some (forallb (fun idx => allclose (at_ a (bindex (shape a) idx)) (at_ b (bindex (shape b) idx))) (all_idx sh))
  | None => None
  end.
(** [(t != 0).any()]. *)
Definition any_nonzero (t : tens) : bool := existsb (fun idx => negb (Qeq_bool (at_ t idx) 0)) (all_idx (shape t)).

(** ** The linear operations *)
Inductive kind := KLinear | KConv | KConvT (stride : list Z).
(** Output shape, position of the channel in an output index, and for every output index the
    pairs of an input and a weight index that are multiplied and summed. *)
Record linop := Op { o_kind : kind; o_shape : list nat; o_chan : nat; o_taps : list nat -> list (list nat * list nat) }.
Definition apply_op (o : linop) (x w : tens) (b : option tens) : tens :=
  T (o_shape o) (fun idx =>
    Qplus (Qsum (map (fun p => Qmult (at_ x (fst p)) (at_ w (snd p))) (o_taps o idx)))
          match b with Some b => at_ b [nth (o_chan o) idx 0] | None => 0%Q end).

(** F.linear on an input of shape [lead ++ [n_in]]. *)
Definition linear_op (lead : list nat) (n_in n_out : nat) : linop :=
  Op KLinear (lead ++ [n_out]) (length lead)
     (fun idx => map (fun k => (firstn (length lead) idx ++ [k], [nth (length lead) idx 0; k])) (seq 0 n_in)).

(** The positions a kernel index reads, None in the padding. *)
Fixpoint conv_pos (sp stride pad dil ts ks : list nat) : option (list nat) :=
  match sp, stride, pad, dil, ts, ks with
  | s :: sp', st :: stride', p :: pad', d :: dil', t :: ts', k :: ks' =>
      let q := t * st + k * d in
      if (p <=? q) && (q - p <? s) then
        match conv_pos sp' stride' pad' dil' ts' ks' with Some r => Some (q - p :: r) | None => None end
      else None
  | [], [], [], [], [], [] => Some []
  | _, _, _, _, _, _ => None
  end.
Fixpoint conv_out (sp stride pad dil ksize : list nat) : list nat :=
  match sp, stride, pad, dil, ksize with
  | s :: sp', st :: stride', p :: pad', d :: dil', k :: ksize' =>
      (s + 2 * p - d * (k - 1) - 1) / st + 1 :: conv_out sp' stride' pad' dil' ksize'
  | _, _, _, _, _ => []
  end.
(** F.conv1d/2d/3d with [g] groups, [cg] input and [og] output channels per group on spatial
    shape [sp]; [batch] is the leading dimension, [] for an unbatched input. *)
Definition conv_op (batch : list nat) (g cg og : nat) (sp ksize stride pad dil : list nat) : linop :=
  Op KConv (batch ++ g * og :: conv_out sp stride pad dil ksize) (length batch)
     (fun idx =>
       let lead := firstn (length batch) idx in
       let oc := nth (length batch) idx 0 in
       let ts := skipn (S (length batch)) idx in
       flat_map (fun c => flat_map (fun ks =>
         match conv_pos sp stride pad dil ts ks with
         | Some pos => [(lead ++ (oc / og * cg + c) :: pos, oc :: c :: ks)]
         | None => []
         end) (all_idx ksize)) (seq 0 cg)).

(** ** Quantized tensors *)
Record qten := QT { t_value : tens; t_scale : tens; t_zp : tens; t_bw : Z; t_signed : bool }.
Inductive tbias := TNone | TPlain (v : tens) | TQuant (q : qten).
Definition tbias_value (b : tbias) : option tens :=
  match b with TNone => None | TPlain v => Some v | TQuant q => Some (t_value q) end.

(** int_torch_handler.py L227-237 [quant_output_scale_impl]; [rank] is that of the input. *)
Definition channel_dim_of (k : kind) : Z := match k with KLinear => (-1)%Z | _ => 1%Z end.
Definition output_scale_t (k : kind) (rank : nat) (input_scale weight_scale : tens) : option tens :=
  obind (channel_view rank (channel_dim_of k) weight_scale) (fun ws =>
  obind (match shape input_scale with [] => channel_view rank (channel_dim_of k) input_scale | _ => Some input_scale end)
    (fun is => broadcast Qmult ws is)).

(** FN_ACC_BITWIDTH_MAPPING, see Linear.v. *)
Definition acc_bit_width (k : kind) (ib wb : Z) (wshape : list nat) : Z :=
  let ws := map Z.of_nat wshape in
  match k with
  | KLinear => max_acc_bit_width_linear ib wb ws
  | KConv => max_acc_bit_width_conv ib wb ws
  | KConvT stride => max_acc_bit_width_conv_transpose ib wb ws stride
  end.

(** int_torch_handler.py L140-213 [quant_layer] with a quantized input and weight: None raises,
    [inl] is a plain tensor.  L183 asks whether the function is an instance of nn.Linear, which it
    never is, so the bias is always viewed along dimension 1. *)
Definition quant_layer_t (o : linop) (x w : qten) (b : tbias) : option (tens + qten) :=
  let rank := length (shape (t_value x)) in
  let out := apply_op o (t_value x) (t_value w) (tbias_value b) in
  obind (output_scale_t (o_kind o) rank (t_scale x) (t_scale w)) (fun scale =>
  let zp_of v := obind (channel_view rank 1 v) (fun v => broadcast Qdiv (tmap Qopp v) scale) in
  obind (match b with
         | TNone => Some None
         | TPlain v => obind (zp_of v) (fun z => Some (Some z))
         | TQuant q => obind (allclose_t (t_scale q) scale) (fun close =>
                       if close then Some None else obind (zp_of (t_value q)) (fun z => Some (Some z)))
         end) (fun zp =>
  let bw := acc_bit_width (o_kind o) (t_bw x) (t_bw w) (shape (t_value w)) in
  let bw := match b with TQuant q => ((if bw <? t_bw q then t_bw q else bw) + 1)%Z | _ => bw end in
  if any_nonzero (t_zp x) || any_nonzero (t_zp w) then Some (inl out)
  else Some (inr (QT out scale match zp with Some z => z | None => T [1] (fun _ => 0%Q) end bw
                     (t_signed x || t_signed w))))).

(** parameter_quant.py L307-313 [quant_output_scale_impl] of the bias proxy and L344-345: the
    product of the viewed scales, flattened. *)
Definition bias_scale_t (k : kind) (rank : nat) (input_scale weight_scale : tens) : option tens :=
  obind (channel_view rank (channel_dim_of k) weight_scale) (fun ws =>
  obind (channel_view rank (channel_dim_of k) input_scale) (fun is =>
  obind (broadcast Qmult ws is) (fun s => Some (flat_view s)))).
(** L332-362 [forward] with requires_input_scale and bit width [bw]: PrescaledRestrictIntQuant
    with the signed full range and zero point 0 (core/quant/int.py L66-82). *)
Definition quant_bias_t (bw : Z) (k : kind) (x w : qten) (b : tens) : option tbias :=
  obind (bias_scale_t k (length (shape (t_value x))) (t_scale x) (t_scale w)) (fun s =>
  let z := T [] (fun _ => 0%Q) in
  obind (int_quant_t (WQ (FMode Round) true false s z bw) [None] b) (fun v => Some (TQuant (QT v s z bw true)))).

(** quant_layer.py L135-161 [forward_impl] after the quantization of input and weight, without
    output quantizer: the bias, the operation, and base.py L99-104 [pack_output]. [x] is the
    possibly unquantized input. *)
Definition layer_forward (o : linop) (return_quant_tensor : bool) (bias_bw : option Z) (x : tens + qten) (w : qten) (b : option tens)
  : option (tens + qten) :=
  match x with
  | inl x =>
      if return_quant_tensor then None
      else match b, bias_bw with
           | Some _, Some _ => None (* "Input scale required", L341-343, without a cached scale *)
           | _, _ => Some (inl (apply_op o x (t_value w) b))
           end
  | inr x =>
      obind (match b with
             | None => Some TNone
             | Some b => match bias_bw with Some bw => quant_bias_t bw (o_kind o) x w b | None => Some (TPlain b) end
             end) (fun b =>
      obind (quant_layer_t o x w b) (fun r =>
      match r with
      | inl v => if return_quant_tensor then None else Some (inl v)
      | inr q => if return_quant_tensor then Some (inr q) else Some (inl (t_value q))
      end))
  end.
