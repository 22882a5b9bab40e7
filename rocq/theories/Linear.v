(** Model of src/brevitas/quant_tensor/int_torch_handler.py (linear / convolution handlers and
    accumulator bit widths) and of the bias quantization in
    src/brevitas/proxy/parameter_quant.py. *)
From Verif Require Import QUtil Log2Q Ops IntQuant QuantTensor.
Open Scope Q_scope.

Fixpoint Zprod (l : list Z) : Z := match l with [] => 1%Z | x :: l' => (x * Zprod l')%Z end.

(** ceil_ste(torch.log2(n)) of an integer. *)
Definition ceil_log2_int (n : Z) : Z := ceil_log2 (inject_Z n).

(** int_torch_handler.py L240-248 [max_acc_bit_width_convNd]; weight_shape is
    [out; in/groups; k1; ...; kd]. *)
Definition max_acc_bit_width_conv (ib wb : Z) (weight_shape : list Z) : Z :=
  let max_uint_input := max_int false false ib in
  let max_kernel_val := max_int false false wb in
  let in_channel := nth 1 weight_shape 0%Z in
  let kernel_size := Zprod (skipn 2 weight_shape) in
  ceil_log2_int (max_uint_input * max_kernel_val * kernel_size * in_channel).

(** L251-257 [max_acc_bit_width_linear]. *)
Definition max_acc_bit_width_linear (ib wb : Z) (weight_shape : list Z) : Z :=
  let max_uint_input := max_int false false ib in
  let max_kernel_val := max_int false false wb in
  let in_channel := nth 1 weight_shape 0%Z in
  ceil_log2_int (max_uint_input * max_kernel_val * in_channel).

(** L260-274 [max_acc_bit_width_convtransposeNd]; weight_shape is
    [in; out/groups; k1; ...; kd]; patch_size is the *sum* of ceil(k/s) over the dimensions. *)
Definition max_acc_bit_width_conv_transpose (ib wb : Z) (weight_shape stride : list Z) : Z :=
  let max_uint_input := max_int false false ib in
  let max_kernel_val := max_int false false wb in
  let out_channel := nth 1 weight_shape 0%Z in
  let patch_size := fold_left (fun acc p => (acc + Z.max (- (- snd p / fst p)) 1)%Z)
                              (combine stride (skipn 2 weight_shape)) 0%Z in
  ceil_log2_int (max_uint_input * max_kernel_val * patch_size * out_channel).

(** L277-281 [max_acc_bit_width_avg_pool2d]. *)
Definition max_acc_bit_width_avg_pool (ib avg_scaling : Z) : Z :=
  ceil_log2_int (max_int false false ib * avg_scaling).

(** torch dot product / F.linear on one input row. *)
Definition dotQ (a b : list Q) : Q := Qsum (map2 Qmult a b).

(** A quantized weight matrix with one scale per output channel. *)
Record wqt := {
  w_rows : list (list Q);
  w_scales : list Q;
  w_zp : Q;
  w_bw : Z;
  w_signed : bool;
  w_training : bool }.

Inductive bias :=
| NoBias
| PlainBias (value : list Q)
| QuantBias (value scale : list Q) (bw : Z).

Definition bias_value (n : nat) (b : bias) : list Q :=
  match b with NoBias => repeat 0 n | PlainBias v => v | QuantBias v _ _ => v end.

(** Output tensor with per-channel scale and zero point. *)
Record lout := {
  lo_value : list Q; lo_scale : list Q; lo_zp : list Q;
  lo_bw : Z; lo_signed : bool; lo_training : bool }.

Definition allclose_list (a b : list Q) : bool :=
  forallb (fun p => allclose (fst p) (snd p)) (combine a b).

(** parameter_quant.py L307-313 [quant_output_scale_impl] and int_torch_handler.py L227-237:
    weight scale times (scalar) input scale, per output channel. *)
Definition quant_output_scale (x : iqt) (w : wqt) : list Q := map (fun s => s * qt_scale x) (w_scales w).

(** int_torch_handler.py L140-213 [quant_layer] for F.linear with a quantized input row and a
    quantized weight.  [inl] is the plain tensor returned when a zero point is non-zero.
    The bias zero point is viewed with shape (1,-1), i.e. per channel, which is right for the
    two-dimensional inputs modelled here. *)
Definition quant_linear (x : iqt) (w : wqt) (b : bias) : list Q + lout :=
  let n := length (w_rows w) in
  let output := map2 Qplus (map (fun row => dotQ (qt_value x) row) (w_rows w)) (bias_value n b) in
  let bit_width := max_acc_bit_width_linear (qt_bw x) (w_bw w)
        [Z.of_nat n; Z.of_nat (length (hd [] (w_rows w)))] in
  let scale := quant_output_scale x w in
  let signed := qt_signed x || w_signed w in
  let training := qt_training x || w_training w in
  let zp_of v := map2 (fun bv s => - bv / s) v scale in
  let zp := match b with
            | NoBias => repeat 0 n
            | PlainBias v => zp_of v
            | QuantBias v bs _ => if allclose_list bs scale then repeat 0 n else zp_of v
            end in
  let bit_width := match b with
            | QuantBias _ _ bb => ((if (bit_width <? bb) then bb else bit_width) + 1)%Z
            | _ => bit_width
            end in
  if negb (Qeq_bool (qt_zp x) 0) || negb (Qeq_bool (w_zp w) 0) then inl output
  else inr {| lo_value := output; lo_scale := scale; lo_zp := zp; lo_bw := bit_width;
              lo_signed := signed; lo_training := training |}.

(** parameter_quant.py L332-362 [BiasQuantProxyFromInjector.forward] with
    requires_input_scale (IntBias, scaled_int.py L78-88): core/quant/int.py L66-82
    [PrescaledRestrictIntQuant] with the output scale, zero point 0, signed full range. *)
Definition quant_bias (bw : Z) (x : iqt) (w : wqt) (b : list Q) : bias :=
  let scale := quant_output_scale x w in
  QuantBias (map2 (fun v s => int_quant (cfg true false Round) s 0 bw v) b scale) scale bw.

(** torch conv_transpose1d, padding 0, dilation 1, groups 1: output channel [o], position [t];
    x is indexed [channel][position], w is indexed [in][out][k]. *)
Definition conv_transpose1d (x : list (list Z)) (w : list (list (list Z))) (stride : Z) (o : nat) (t : Z) : Z :=
  fold_left Z.add
    (map (fun p =>
      fold_left Z.add
        (concat (map (fun pos =>
            map (fun k => if (Z.of_nat pos * stride + Z.of_nat k =? t)%Z
                          then (nth pos (fst p) 0 * nth k (nth o (snd p) []) 0)%Z else 0%Z)
                (seq 0 (length (nth o (snd p) []))))
          (seq 0 (length (fst p))))) 0%Z)
      (combine x w)) 0%Z.
