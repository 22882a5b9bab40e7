(** Model of the layers for the FlexML target: src/brevitas/nn/target/flexml.py
    [FlexMLQuantAvgPool2d], [FlexMLQuantLeakyReLU], of the quantizers they use by default
    (src/brevitas/quant/fixed_point.py [Int8ActPerTensorFixedPoint],
    [Uint8ActPerTensorFixedPoint], over src/brevitas/core/scaling/standalone.py
    [ParameterFromRuntimeStatsScaling]), and of how src/brevitas/graph/target/flexml.py hands
    them to the layers of a network.

    Exact rational arithmetic.  One channel of one image is a function of row and column. *)
From Verif Require Import QUtil Log2Q Ops IntQuant.
Open Scope Q_scope.

(** ** Average pooling *)
(** nn/target/flexml.py L91-96 [_avg_scaling]. *)
Inductive kernel := KInt (k : Z) | KPair (k0 k1 : Z).
Definition k_h (k : kernel) : Z := match k with KInt k => k | KPair k0 _ => k0 end.
Definition k_w (k : kernel) : Z := match k with KInt k => k | KPair _ k1 => k1 end.
Definition avg_scaling (k : kernel) : Z :=
  match k with KPair k0 k1 => (k0 * k1)%Z | KInt k => (k * k)%Z end.

(** L77-78: the fresh 8-bit quantizer (L56-59) is called once, in training mode, on the single
    number 1 / K.  standalone.py L338-359 at counter 0: the scale is the statistic (AbsMax,
    clamped below by scaling_min_val = 1e-10) over the integer threshold, without the
    power-of-two restriction; core/scaling/int_scaling.py [PowerOfTwoIntScaling] gives
    max_int + 1 as threshold. *)
Definition div_bits : Z := 8.
Definition div_input (k : kernel) : Q := 1 / inject_Z (avg_scaling k).
Definition scaling_min_val : Q := 1 # 10000000000.
Definition div_scale (k : kernel) : Q :=
  torch_max (Qabs (div_input k)) scaling_min_val / inject_Z (max_int true false div_bits + 1).
(** L79-81 [quantized_div_int_value], [quantized_div_scale], [rescaling_const]. *)
Definition div_int (k : kernel) : Q := to_int (cfg true false Round) (div_scale k) 0 div_bits (div_input k).
Definition div_value (k : kernel) : Q := int_quant (cfg true false Round) (div_scale k) 0 div_bits (div_input k).
Definition rescaling_const (k : kernel) : Q := div_value k * inject_Z (avg_scaling k).

Record pool_cfg := PC { p_kernel : kernel; p_stride_h : Z; p_stride_w : Z; p_pad_h : Z; p_pad_w : Z; p_ceil : bool }.

Definition zrange (a b : Z) : list Z := map (fun i => (a + Z.of_nat i)%Z) (seq 0 (Z.to_nat (b - a))).
Fixpoint Qsum (l : list Q) : Q := match l with [] => 0 | x :: l' => x + Qsum l' end.

(** torch.nn.functional.avg_pool2d with count_include_pad=True (external behaviour assumed): the
    number of windows, the extent of a window (cut at the padded border), and its sum over the
    elements of the image divided by the size of the cut window. *)
Definition out_size (n k s p : Z) (ceil : bool) : Z :=
  let o := ((n + 2 * p - k + (if ceil then s - 1 else 0)) / s + 1)%Z in
  if ceil && ((o - 1) * s >=? n + p)%Z then (o - 1)%Z else o.
Definition w_start (s p i : Z) : Z := (i * s - p)%Z.
Definition w_end (n k s p i : Z) : Z := Z.min (w_start s p i + k) (n + p).
Definition avg_pool2d (c : pool_cfg) (H W : Z) (x : Z -> Z -> Q) (i j : Z) : Q :=
  let hs := w_start (p_stride_h c) (p_pad_h c) i in
  let ws := w_start (p_stride_w c) (p_pad_w c) j in
  let he := w_end H (k_h (p_kernel c)) (p_stride_h c) (p_pad_h c) i in
  let we := w_end W (k_w (p_kernel c)) (p_stride_w c) (p_pad_w c) j in
  let pool_size := ((he - hs) * (we - ws))%Z in
  Qsum (map (fun h => Qsum (map (x h) (zrange (Z.max ws 0) (Z.min we W)))) (zrange (Z.max hs 0) (Z.min he H)))
    / inject_Z pool_size.

(** L109-113 [max_acc_bit_width]. *)
Definition max_acc_bit_width (k : kernel) (input_bit_width : Z) : Z :=
  let max_uint_input := inject_Z (max_int false false input_bit_width) in
  let max_uint_output := max_uint_input * inject_Z (avg_scaling k) * div_int k in
  ceil_log2 max_uint_output.

(** L98-107 [forward]; a quantized input carries one scale.  [None]: pack_output's assertion. *)
Record qimg := QI { q_px : Z -> Z -> Q; q_scale : Q; q_zp : Q; q_bw : Z; q_signed : bool }.
Inductive fin := FPlain (x : Z -> Z -> Q) | FQuant (x : qimg).
Definition flexml_avg_pool (c : pool_cfg) (return_quant_tensor : bool) (H W : Z) (x : fin) : option fin :=
  let run px := fun i j => avg_pool2d c H W px i j * rescaling_const (p_kernel c) in
  match x with
  | FQuant q =>
      let out := QI (run (q_px q)) (q_scale q * div_scale (p_kernel c)) (q_zp q)
                    (max_acc_bit_width (p_kernel c) (q_bw q)) (q_signed q) in
      Some (if return_quant_tensor then FQuant out else FPlain (q_px out))
  | FPlain px => if return_quant_tensor then None else Some (FPlain (run px))
  end.

(** ** Leaky ReLU *)
(** A rounding activation quantizer with a given scale (zero point 0, full range). *)
Definition aquant (signed : bool) (bw : Z) (s : Q) (x : Q) : Q := int_quant (cfg signed false Round) s 0 bw x.

(** L37-43 [forward] on one element, with the scales the quantizers use: [si] and [si2] for the
    two calls of the input quantizer (the same in evaluation mode), [sa] for the slope and [so]
    for the output. *)
Definition leaky (slope si si2 sa so : Q) (x : Q) : Q :=
  let quant_inp := aquant true 16 si x in
  let quant_alpha := aquant false 16 sa slope in
  let quant_alpha_out := aquant true 16 si2 (quant_inp * quant_alpha) in
  let out := torch_max quant_inp quant_alpha_out in
  aquant true 8 so out.

(** State of a [ParameterFromRuntimeStatsScaling] while it collects statistics: buffer and
    counter (standalone.py L327-328, L353-358); scaling_stats_momentum=None makes it a plain
    average (core/utils.py L26-38).  The 99.999 percentile of at most 50000 elements is the
    maximum of their absolute values, the only case modelled. *)
Record stat := St { buffer : Q; counter : Z }.
Definition fresh : stat := St 1 0.
Fixpoint absmax (l : list Q) : Q := match l with [] => 0 | x :: l' => torch_max (Qabs x) (absmax l') end.
Definition observe (l : list Q) (st : stat) : stat :=
  let clamped := torch_max (absmax l) scaling_min_val in
  let new_counter := (counter st + 1)%Z in
  if (counter st =? 0)%Z then St (buffer st * clamped) new_counter
  else St (buffer st * (inject_Z (counter st) / inject_Z new_counter) + clamped / inject_Z new_counter) new_counter.
(** The scale of a training call (L359), and of an evaluation call (L380-386) before the end of
    the collection: the latter is rounded up to a power of two. *)
Definition train_scale (signed : bool) (bw : Z) (l : list Q) : Q :=
  torch_max (absmax l) scaling_min_val / inject_Z (max_int signed false bw + 1).
Definition eval_scale (signed : bool) (bw : Z) (st : stat) : Q :=
  torch_max (pow2 (ceil_log2 (buffer st / inject_Z (max_int signed false bw + 1)))) scaling_min_val.

(** One training forward pass as far as the input quantizer is concerned: it is called on the
    input and on the product with the slope, and collects statistics on both. *)
Definition observe_input (slope : Q) (xs : list Q) (st : stat) : stat :=
  let st1 := observe xs st in
  let quant_inp := map (aquant true 16 (train_scale true 16 xs)) xs in
  let quant_alpha := aquant false 16 (train_scale false 16 [slope]) slope in
  observe (map (fun v => v * quant_alpha) quant_inp) st1.

(** ** Who shares what *)
(** L24-30: default arguments are evaluated once, and graph/target/flexml.py L100-109 holds
    instances too: the layer map passes them unchanged to every layer.  A layer refers to its
    quantizers by identity. *)
Record leaky_layer := LL { l_slope : Q; l_alpha : nat; l_input : nat; l_output : nat }.
Definition default_alpha : nat := 0.
Definition default_input : nat := 1.
Definition default_output : nat := 2.
Definition make_leaky (slope : Q) (alpha_quant input_quant output_quant : option nat) : leaky_layer :=
  let arg d o := match o with Some q => q | None => d end in
  LL slope (arg default_alpha alpha_quant) (arg default_input input_quant) (arg default_output output_quant).
(** A store of quantizer states; a training pass of a layer updates its input quantizer. *)
Definition store := nat -> stat.
Definition train_layer (l : leaky_layer) (xs : list Q) (s : store) : store :=
  fun q => if Nat.eqb q (l_input l) then observe_input (l_slope l) xs (s q) else s q.
Definition input_scale (l : leaky_layer) (s : store) : Q := eval_scale true 16 (s (l_input l)).
