(** Model of integer truncation and average pooling:
    src/brevitas/core/quant/int.py [TruncIntQuant],
    src/brevitas/export/common/handler/qcdq.py [QCDQCastTruncQuantProxyHandlerMixin],
    src/brevitas/nn/quant_avg_pool.py, the pooling handlers of
    src/brevitas/quant_tensor/int_torch_handler.py and src/brevitas/graph/per_input.py.

    Tensors with spatial dimensions are functions from index tuples to values; one
    (batch, channel) slice at a time, which is how pooling acts. *)
From Verif Require Import QUtil Ops IntQuant QuantTensor Log2Q Linear Export.
Open Scope Q_scope.

(** core/quant/int.py L212-226 [TruncIntQuant.forward] on one element (no delay):
    note that nothing clamps the result. *)
Definition trunc_int_quant (m : rmode) (scale zp : Q) (in_bw out_bw : Z) (x : Q) : Q :=
  let y := x / scale in
  let y := y + zp in
  let y := inject_Z (roundZ y) in
  let trunc_scale := pow2 (in_bw - out_bw) in
  let y := y / trunc_scale in
  let y := float_to_int m y in
  let y := y - zp in
  y * scale.

(** qcdq.py L776-809: [prepare_for_export] validates (torch/qcdq/handler.py L80-84 and
    onnx/standard/qcdq/handler.py L96-106: round mode, at most 8 bits for ONNX) and
    [symbolic_execution] quantizes with the enlarged scale, clips to the output width and
    de-quantizes with the original scale. *)
Definition qcdq_trunc (t : target) (signed : bool) (m : rmode) (scale : Q) (zp in_bw out_bw : Z) (x : Q) : option Q :=
  if validate t true out_bw m then
    let d := if signed then Int8 else UInt8 in
    match int_clip_kwargs false signed out_bw with
    | Some clip =>
        let q := quantize_linear d (scale * pow2 (in_bw - out_bw)) zp x in
        Some (dequantize_linear scale zp (apply_clip clip q))
    | None => None
    end
  else None.

(** Index ranges [a, a + n) and Cartesian products. *)
Definition zrange (a n : Z) : list Z := map (fun i => (a + Z.of_nat i)%Z) (seq 0 (Z.to_nat n)).
Fixpoint cart {A} (l : list (list A)) : list (list A) :=
  match l with
  | [] => [[]]
  | c :: l' => flat_map (fun a => map (cons a) (cart l')) c
  end.

(** One spatial dimension of a pooling call: input size, kernel, stride, padding. *)
Record pdim := PDim { p_in : Z; p_k : Z; p_s : Z; p_p : Z }.

(** torch pooling_output_shape (aten/native/Pool.h), external behaviour assumed. *)
Definition pool_out_size (ceil_mode : bool) (d : pdim) : Z :=
  let o := ((p_in d + 2 * p_p d - p_k d + (if ceil_mode then p_s d - 1 else 0)) / p_s d + 1)%Z in
  if ceil_mode && (p_in d + p_p d <=? (o - 1) * p_s d)%Z then (o - 1)%Z else o.

(** Window i of a dimension, before clipping to the real input: [start, end). *)
Definition avg_windows (ceil_mode : bool) (d : pdim) : list (Z * Z) :=
  map (fun i => let st := (i * p_s d - p_p d)%Z in (st, Z.min (st + p_k d) (p_in d + p_p d)))
      (zrange 0 (pool_out_size ceil_mode d)).

(** Value at an index, zero in the padding. *)
Definition inside (sizes idx : list Z) : bool :=
  forallb (fun p => (0 <=? snd p)%Z && (snd p <? fst p)%Z) (combine sizes idx).
Definition get (sizes : list Z) (x : list Z -> Q) (idx : list Z) : Q :=
  if inside sizes idx then x idx else 0.

Definition box (w : list (Z * Z)) : list (list Z) := cart (map (fun p => zrange (fst p) (snd p - fst p)) w).
Definition box_sum (sizes : list Z) (x : list Z -> Q) (w : list (Z * Z)) : Q := Qsum (map (get sizes x) (box w)).
Definition box_size (w : list (Z * Z)) : Z := Zprod (map (fun p => (snd p - fst p)%Z) w).
Definition clip_box (sizes : list Z) (w : list (Z * Z)) : list (Z * Z) :=
  map (fun q => (Z.max 0 (fst (snd q)), Z.min (fst q) (snd (snd q)))) (combine sizes w).

(** torch.nn.AvgPool{1,2,3}d (external behaviour assumed). *)
Definition avg_pool (ceil_mode count_include_pad : bool) (dims : list pdim) (x : list Z -> Q) : list Q :=
  let sizes := map p_in dims in
  map (fun w =>
         let n := if count_include_pad then box_size w else box_size (clip_box sizes w) in
         box_sum sizes x w / inject_Z n)
      (cart (map (avg_windows ceil_mode) dims)).

(** torch.nn.AdaptiveAvgPool: window i of a dimension is
    [floor(i*in/out), ceil((i+1)*in/out)) (external behaviour assumed). *)
Definition adaptive_windows (io : Z * Z) : list (Z * Z) :=
  let '(inp, out) := io in
  map (fun i => ((i * inp / out)%Z, (- (- ((i + 1) * inp) / out))%Z)) (zrange 0 out).
Definition adaptive_avg_pool (ios : list (Z * Z)) (x : list Z -> Q) : list Q :=
  map (fun w => box_sum (map fst ios) x w / inject_Z (box_size w)) (cart (map adaptive_windows ios)).

(** A convolution whose every tap has weight [w], one channel (depthwise), zero padding. *)
Definition const_conv (w : Q) (dims : list pdim) (x : list Z -> Q) : list Q :=
  map (fun st => Qsum (map (fun idx => w * get (map p_in dims) x idx)
                     (cart (map (fun q => zrange (snd q) (p_k (fst q))) (combine dims st)))))
      (cart (map (fun d => map (fun i => (i * p_s d - p_p d)%Z) (zrange 0 (pool_out_size false d))) dims)).

(** nn/quant_avg_pool.py L57-71 [TruncAvgPool2d.forward] on a QuantTensor, with the pooling
    handler int_torch_handler.py L95-118: the values of the output and its bit width.
    padding = 0, ceil_mode = False (constructor L40-41). *)
Definition trunc_avg_pool2d (m : rmode) (out_bw : Z) (h w kh kw sh sw : Z)
    (scale zp : Q) (in_bw : Z) (x : list Z -> Q) : list Q :=
  let area := (kh * kw)%Z in
  let acc_bw := max_acc_bit_width_avg_pool in_bw area in
  map (fun y => trunc_int_quant m scale zp acc_bw out_bw (y * inject_Z area))
      (avg_pool false true [PDim h kh sh 0; PDim w kw sw 0] x).

(** nn/quant_avg_pool.py L103-112 [compute_kernel_size_stride], one dimension. *)
Definition compute_kernel_size_stride (io : Z * Z) : Z * Z :=
  let '(inp, out) := io in
  let stride := (inp / out)%Z in
  let kernel_size := (inp - (out - 1) * stride)%Z in
  (kernel_size, stride).

(** nn/quant_avg_pool.py L114-133 [TruncAdaptiveAvgPool2d.forward] on a QuantTensor, with the
    handler int_torch_handler.py L121-137. *)
Definition trunc_adaptive_avg_pool2d (m : rmode) (out_bw : Z) (ios : list (Z * Z))
    (scale zp : Q) (in_bw : Z) (x : list Z -> Q) : list Q :=
  let reduce_size := Zprod (map (fun io => fst (compute_kernel_size_stride io)) ios) in
  let acc_bw := max_acc_bit_width_avg_pool in_bw reduce_size in
  map (fun y => trunc_int_quant m scale zp acc_bw out_bw (y * inject_Z reduce_size))
      (adaptive_avg_pool ios x).

(** graph/per_input.py L43-65 [AdaptiveAvgPoolToAvgPool.replace_modules]: kernel and stride
    of the replacement for each dimension, None when the module is left alone.
    [int(a / b)] on a divisible pair is the exact quotient. *)
Definition adaptive_to_avg (unit_stride : bool) (ios : list (Z * Z)) : option (list pdim) :=
  if forallb (fun io => (fst io mod snd io =? 0)%Z) ios then
    let global := unit_stride && forallb (fun io => (snd io =? 1)%Z) ios in
    Some (map (fun io =>
                 let s := (fst io / snd io)%Z in
                 let k := (fst io - s * (snd io - 1))%Z in
                 PDim (fst io) k (if global then 1%Z else s) 0) ios)
  else None.

(** graph/per_input.py L84-113 [AvgPoolToQuantDepthwiseConv.replace_modules]: a depthwise
    convolution with the pool's kernel, stride and padding and every weight equal to
    1 / prod(kernel_size); [ceil_mode] and [count_include_pad] are not consulted.  Weight
    quantization is left out. *)
Definition avg_pool_to_dw_conv (ceil_mode count_include_pad : bool) (dims : list pdim) : (list Z -> Q) -> list Q :=
  let kernel_value := 1 / inject_Z (Zprod (map p_k dims)) in
  const_conv kernel_value dims.
