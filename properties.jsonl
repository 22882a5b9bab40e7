{"id": "C01", "title": "Integer fake-quantization lands on the declared integer grid", "statement": "For a positive scale, an integer zero point, a bit width >= 1 and any of the library's float-to-int modes (round, floor, ceil, round-to-zero, DPU), the dequantized output of integer quantization is (q - zero_point) * scale for an integer q inside the signed/unsigned/narrow range declared by the bit width.", "quantifier": "every real input, every positive scale, every integer zero point, every bit width >= 1, both signedness values, both narrow_range values, all five rounding modes", "why_tests_cant": "The claim ranges over all reals and all bit widths; tests sample a few tensors and bit widths and cannot exclude a boundary or tie value that escapes the range.", "anchors": ["src/brevitas/core/quant/int_base.py:IntQuant", "src/brevitas/function/ops.py:max_int", "src/brevitas/function/ops.py:min_int", "src/brevitas/function/ops.py:tensor_clamp"]}
{"id": "C02", "title": "Integer fake-quantization is idempotent", "statement": "Quantizing an already fake-quantized value again with the same scale, zero point and bit width returns exactly the same value, for every rounding mode, so re-quantization at layer borders or on export (e.g. QONNX weight export, which re-quantizes quantized weights with ROUND) does not drift.", "quantifier": "every real input, scale > 0, integer zero point, bit width, signedness, narrow flag, and every pair of rounding modes (one for the first, another for the second quantization)", "why_tests_cant": "Idempotence must hold at every rounding tie and clipping boundary for every scale.", "anchors": ["src/brevitas/core/quant/int_base.py:IntQuant.forward", "src/brevitas/export/onnx/qonnx/handler.py"]}
{"id": "C03", "title": "Rounding-mode quantization returns a nearest representable value", "statement": "With the default ROUND mode the output is at least as close to the input as any other value representable with the same scale, zero point and bit width; in particular the error is at most half a scale inside the representable interval and saturates to the nearest end point outside.", "quantifier": "every real input, scale > 0, integer zero point, bit width >= 1, signedness, narrow flag, and every representable competitor value", "why_tests_cant": "Optimality quantifies over all competitors and all inputs.", "anchors": ["src/brevitas/core/quant/int_base.py:IntQuant.to_int", "src/brevitas/function/ops_ste.py:round_ste"]}
{"id": "C04", "title": "Quantization preserves order", "statement": "x <= y implies quant(x) <= quant(y), for all float-to-int modes and with clipping.", "quantifier": "all pairs of reals, all scales > 0, all zero points, all bit widths, all five rounding modes", "why_tests_cant": "A violation could hide at any pair straddling a tie or clip boundary.", "anchors": ["src/brevitas/core/quant/int_base.py:IntQuant", "src/brevitas/function/ops.py:dpu_round", "src/brevitas/function/ops.py:round_to_zero"]}
{"id": "C05", "title": "Rounding primitives meet their numeric specification", "statement": "ROUND returns the nearest integer with ties to even; ROUND_TO_ZERO returns the integer part and never increases the magnitude; the DPU rounding returns a nearest integer, resolving ties of negative inputs towards +infinity and ties of non-negative inputs to even; every mode fixes integers and moves an input by less than 1.", "quantifier": "all reals, all modes", "why_tests_cant": "Ties form an infinite family of exceptional points that sampling misses.", "anchors": ["src/brevitas/function/ops.py:round_to_zero", "src/brevitas/function/ops.py:dpu_round", "src/brevitas/function/ops.py:binary_sign"]}
{"id": "C06", "title": "Integer ranges have the advertised number of levels and contain zero", "statement": "For every bit width the range has exactly 2^b levels when not narrow and 2^b - 1 levels when narrow, contains 0, is symmetric exactly when it is signed and narrow, and grows strictly with the bit width.", "quantifier": "all bit widths >= 1 (>= 2 for signed narrow), both signedness values, both narrow flags", "why_tests_cant": "Tests enumerate a handful of bit widths; the claim is for all.", "anchors": ["src/brevitas/function/ops.py:max_int", "src/brevitas/function/ops.py:min_int"]}
{"id": "C07", "title": "Zero is exactly representable", "statement": "A zero input is quantized to exactly zero whenever the zero point is an integer within the integer range, in every rounding mode; zero padding is therefore error free.", "quantifier": "all scales > 0, all in-range integer zero points, all bit widths and flags, all modes", "why_tests_cant": "Needs all scales/zero points.", "anchors": ["src/brevitas/core/quant/int_base.py:IntQuant", "src/brevitas/core/zero_point.py"]}
{"id": "C08", "title": "Symmetric quantization commutes with negation only for symmetric ranges", "statement": "With zero point 0 and narrow signed range, quant(-x) = -quant(x) for round and round-to-zero; without narrow range there are inputs for which this fails (at the negative end).", "quantifier": "all reals and scales for the positive part; existence of a witness for every bit width >= 2 and scale in the negative part", "why_tests_cant": "Universal over inputs; the failing boundary exists for each bit width.", "anchors": ["src/brevitas/core/quant/int_base.py:IntQuant", "src/brevitas/function/ops.py:max_int"]}
{"id": "C09", "title": "Element-wise clamp computes the nearest point of the interval", "statement": "Tensor clamp returns a value within [min,max], equal to the input when it is already inside and to the nearest bound otherwise; the out-of-place and in-place variants agree for all bounds, and when the bounds are inverted both return min.", "quantifier": "all reals and all bounds", "why_tests_cant": "Universally quantified; order of comparison matters for inverted bounds only.", "anchors": ["src/brevitas/function/ops.py:tensor_clamp", "src/brevitas/function/ops.py:tensor_clamp_"]}
{"id": "C10", "title": "Statistics-based weight scaling never clips a symmetric quantizer", "statement": "When the scale is max|w| divided by the integer threshold of a signed symmetric quantizer, every weight is quantized without saturation and with error at most half a scale if the range is narrow; for a full (non-narrow) signed range the error is at most one scale and the positive extremum is clipped by exactly one scale.", "quantifier": "all non-empty weight tensors with a non-zero element, all bit widths >= 2, narrow or not", "why_tests_cant": "Every element of every tensor must be within range, including the extremum itself.", "anchors": ["src/brevitas/core/scaling/int_scaling.py:IntScaling", "src/brevitas/core/stats/stats_op.py:AbsMax", "src/brevitas/core/quant/int.py:RescalingIntQuant"]}
{"id": "C11", "title": "Asymmetric (min/max) quantization covers the observed range", "statement": "With the scale computed from the observed min/max interval and the zero point from the observed minimum, the zero point is an integer in the unsigned range, and every element is reproduced within half a scale step, provided the tensor has a non-negative element; for an all-negative tensor this fails.", "quantifier": "all tensors, all bit widths >= 1", "why_tests_cant": "Universally quantified over tensors; rounding of the zero point interacts with clipping.", "anchors": ["src/brevitas/core/zero_point.py:StatsFromParameterZeroPoint", "src/brevitas/core/zero_point.py:_ScaleShiftZeroPoint", "src/brevitas/core/stats/stats_op.py:AbsMinMax", "src/brevitas/core/stats/stats_op.py:NegativeMinOrZero"]}
{"id": "C12", "title": "Power-of-two restriction yields an exact power of two within its rounding bracket", "statement": "A scale restricted to powers of two is exactly 2^k; with ceil restriction it is in [t, 2t), with floor in (t/2, t], with round within a factor sqrt(2) of the unrestricted threshold t; exact powers of two are unchanged. A non-zero minimum scaling value is applied afterwards and can break the power-of-two guarantee.", "quantifier": "all positive thresholds, all rounding choices", "why_tests_cant": "Universal over positive reals.", "anchors": ["src/brevitas/core/restrict_val.py:PowerOfTwoRestrictValue", "src/brevitas/function/ops_ste.py"]}
{"id": "C13", "title": "Binary quantization yields exactly two levels and ternary exactly three", "statement": "Binary quantization maps every input to +scale or -scale (non-negative inputs to +scale); clamped binary gives the same outputs; ternary maps to {-scale,0,+scale} according to the relative threshold; all are idempotent for positive scale (ternary when the relative threshold is below 1; at threshold 1 it is not idempotent).", "quantifier": "all reals, all scales > 0, all thresholds in (0,1]", "why_tests_cant": "Universal over inputs; the zero and threshold inputs are single points.", "anchors": ["src/brevitas/core/quant/binary.py", "src/brevitas/core/quant/ternary.py"]}
{"id": "C14", "title": "Learned bit width never drops below the configured minimum", "statement": "A learned bit width reported by the quantizer is an integer at least the configured minimum for every value the learned offset may take during training, and equals the initial bit width at initialization; a bit width loaded from a constant-width checkpoint is restored if it is not below the minimum (otherwise it is reflected above it); bit-width removal stays within its bounds for every learned coefficient but is not monotone in the number of removed bits.", "quantifier": "all reachable parameter values", "why_tests_cant": "Training can drive the offset to any real.", "anchors": ["src/brevitas/core/bit_width/parameter.py:BitWidthParameter", "src/brevitas/core/bit_width/parameter.py:RemoveBitwidthParameter"]}
{"id": "C15", "title": "Product of quantized tensors fits the declared bit width", "statement": "The result of multiplying two valid quantized tensors with zero zero-points is a valid quantized tensor: its value equals the real product, and its integer representation fits the declared (sum) bit width and signedness.", "quantifier": "all valid operands, all bit widths >= 1 and signedness combinations", "why_tests_cant": "The worst cases are extreme integer pairs for each bit width pair.", "anchors": ["src/brevitas/quant_tensor/int_quant_tensor.py:IntQuantTensor.__mul__"]}
{"id": "C16", "title": "Sum of quantized tensors fits the declared bit width", "statement": "Adding two quantized tensors of equal scale returns the exact real sum and, for operands of equal signedness and at least two bits each, its integers fit the declared bit width; for operands of mixed signedness, or one-bit unsigned operands, the declared width can be too small. Adding a float constant keeps the integers. Scales below the comparison tolerance are accepted although different.", "quantifier": "all valid operand pairs for the positive part; witnesses for the negative part", "why_tests_cant": "Worst cases depend on both widths and signs.", "anchors": ["src/brevitas/quant_tensor/int_quant_tensor.py:IntQuantTensor.__add__"]}
{"id": "C17", "title": "Negation and absolute value of quantized tensors", "statement": "Negating / taking the absolute value of a quantized tensor whose zero point is 0 and which does not contain the most negative integer gives a valid quantized tensor denoting the negated / absolute value; with the most negative integer present, or with a non-zero zero point, the returned tensor is invalid or denotes another value. Subtraction of equal-sign tensors fits its declared width; mixed-sign subtraction does not.", "quantifier": "all valid operands; witnesses", "why_tests_cant": "The single most negative code and non-zero zero points are rarely sampled.", "anchors": ["src/brevitas/quant_tensor/int_quant_tensor.py:IntQuantTensor.__neg__", "src/brevitas/quant_tensor/int_quant_tensor.py:IntQuantTensor.__abs__"]}
{"id": "C18", "title": "Integer view of a quantized tensor round-trips", "statement": "For a valid quantized tensor, int() returns integers that fit in the returned dtype and from which the value is recovered exactly as (int - zero_point) * scale; any tensor accepted by the validity test has in-range codes within 0.2 scale of its values; others raise. Unsigned 32-bit codes and one-bit tensors are not covered.", "quantifier": "all valid quantized tensors with 2 <= bit width <= 32", "why_tests_cant": "All codes of all bit widths.", "anchors": ["src/brevitas/quant_tensor/int_quant_tensor.py:IntQuantTensor.int", "src/brevitas/quant_tensor/int_quant_tensor.py:IntQuantTensor.is_valid"]}
{"id": "C19", "title": "Concatenation of quantized tensors requires and preserves matching metadata", "statement": "In evaluation mode, concatenating quantized tensors that share scale, zero point, bit width and sign gives a valid tensor of the concatenated values; success implies agreement up to the comparison tolerance; different signs or bit widths are always rejected. Scales below the absolute tolerance and training mode break validity.", "quantifier": "all lists of quantized tensors", "why_tests_cant": "Any metadata combination.", "anchors": ["src/brevitas/quant_tensor/int_quant_tensor.py:IntQuantTensor.cat", "src/brevitas/quant_tensor/base_quant_tensor.py"]}
{"id": "C20", "title": "Declared accumulator bit width of linear/conv layers is sufficient", "statement": "For layers with n products per output, the declared output bit width ceil(log2((2^I-1)(2^W-1)n)) is enough to hold every sum of n products of I-bit inputs and W-bit weights for the sign/range combinations (signed input with signed weights of >=2 bits; unsigned input with narrow-range signed weights; unsigned x unsigned unless both are 1 bit); for unsigned inputs with full-range signed weights it is not sufficient in general.", "quantifier": "all n >= 1, all widths, all integer operands", "why_tests_cant": "The set of operands is astronomically large; worst case only appears for saturated operands.", "anchors": ["src/brevitas/quant_tensor/int_torch_handler.py:max_acc_bit_width_linear", "src/brevitas/quant_tensor/int_torch_handler.py:max_acc_bit_width_convNd"]}
{"id": "C21", "title": "Accumulator-aware quantization (A2Q) rules out overflow", "statement": "Weights quantized with the accumulator-aware pre-scaling quantizer satisfy: for every N-bit (signed or unsigned) integer input vector, the dot product, and every partial sum in every order, fits a signed P-bit accumulator.", "quantifier": "all weight vectors, all learned norm parameters, all input vectors, all P, N, both input signs, all summation orders", "why_tests_cant": "Overflow freedom is a universal property over inputs and orders.", "anchors": ["src/brevitas/core/scaling/pre_scaling.py:AccumulatorAwareParameterPreScaling", "src/brevitas/function/ops.py:get_upper_bound_on_l1_norm", "src/brevitas/core/quant/int.py:DecoupledRescalingIntQuantWithInput"]}
{"id": "C22", "title": "Zero-centred accumulator-aware quantization (A2Q+) rules out overflow", "statement": "Same guarantee as A2Q for the zero-centred variant with the improved norm bound.", "quantifier": "all weight vectors with the mean removed, all inputs, P, N, signs, orders", "why_tests_cant": "As above.", "anchors": ["src/brevitas/core/scaling/pre_scaling.py:AccumulatorAwareZeroCenterParameterPreScaling"]}
{"id": "C23", "title": "Quantized linear layers equal integer arithmetic", "statement": "For quantized input (scale s_x, zero point 0), quantized weights (per-tensor or per-channel scale s_w, zero point 0) and bias quantized with scale s_x*s_w, the float output equals the integer matmul-plus-bias result times s_x*s_w, i.e. integer-only inference reproduces the fake-quantized layer exactly; the output scale declared by the layer is s_x*s_w.", "quantifier": "all weight matrices, inputs and biases", "why_tests_cant": "Universal over tensors.", "anchors": ["src/brevitas/quant_tensor/int_torch_handler.py:quant_layer", "src/brevitas/quant_tensor/int_torch_handler.py:quant_output_scale_impl", "src/brevitas/proxy/parameter_quant.py:BiasQuantProxyFromInjector"]}
{"id": "C24", "title": "Runtime statistics: buffered value is the configured moving average", "statement": "During training every batch updates the running statistic with the exponential moving average of the configured momentum (first batch: the batch statistic itself); with momentum None it is the exact arithmetic mean of all batches seen; in evaluation mode it never changes.", "quantifier": "all histories of training/eval forward calls", "why_tests_cant": "Histories are unbounded sequences.", "anchors": ["src/brevitas/core/stats/stats_wrapper.py:_RuntimeStats", "src/brevitas/core/utils.py:inplace_momentum_update"]}
{"id": "C25", "title": "Calibrated-parameter scaling follows its three-phase life cycle", "statement": "Parameter-from-runtime-stats scaling uses batch statistics for exactly the configured number of training steps, then converts the buffer into the learned parameter exactly once, and never reads or modifies the buffer afterwards; in evaluation mode the scale does not change across calls.", "quantifier": "all interleavings of training and evaluation forward calls and all step counts", "why_tests_cant": "Unbounded histories including evaluation in the middle of collection.", "anchors": ["src/brevitas/core/scaling/standalone.py:ParameterFromRuntimeStatsScaling"]}
{"id": "C26", "title": "Saving and reloading preserves evaluation behaviour at any point of training", "statement": "Saving the state dict of a runtime-stats scaling module at any moment and loading it in a fresh module gives a module with the same evaluation-mode output.", "quantifier": "all histories before the save", "why_tests_cant": "Any prefix of any training history is a crash/save point.", "anchors": ["src/brevitas/core/scaling/standalone.py:ParameterFromRuntimeStatsScaling.state_dict", "src/brevitas/core/scaling/standalone.py:ParameterFromRuntimeStatsScaling._load_from_state_dict"]}
{"id": "C27", "title": "Quantization delay passes through exactly N calls", "statement": "With a quantization delay of N steps, the first N calls return the unquantized input and every later call returns the quantized one; the counter never becomes negative. Calls in evaluation mode count as well (so it is not 'N training steps').", "quantifier": "all N, all histories of calls", "why_tests_cant": "Unbounded histories.", "anchors": ["src/brevitas/core/quant/delay.py"]}
{"id": "C28", "title": "Minifloat quantization produces representable values", "statement": "Every finite output of minifloat quantization (scale 1) is a value representable with the configured exponent/mantissa widths and bias (normal or subnormal), within the configured maximum; quantization is idempotent, monotone and maps 0 to 0.", "quantifier": "all reals, all exponent/mantissa widths and biases", "why_tests_cant": "All codes in all formats.", "anchors": ["src/brevitas/core/quant/float.py:FloatQuant", "src/brevitas/core/function_wrapper/clamp.py:FloatClamp", "src/brevitas/utils/torch_utils.py:float_internal_scale"]}
{"id": "C29", "title": "Largest finite minifloat respects reserved codes", "statement": "The maximum value computed for a minifloat format with inf/NaN codes is the largest value whose code is not reserved by, or above, a special code; without reserved codes it is max_float; OCP E4M3 gives 448 and E5M2 57344.", "quantifier": "all exponent/mantissa widths and special-code sets at the top exponent", "why_tests_cant": "Universal over formats.", "anchors": ["src/brevitas/utils/float_quant_utils.py:get_max_available_float"]}
{"id": "C30", "title": "Group-wise views partition the tensor and are undone exactly", "statement": "Group-wise weight and activation quantization along a non-negative dimension pads that dimension with the minimal number of zeros to a multiple of the group size, splits it into consecutive groups of exactly the group size, computes one scale per group and, after expansion, quantizes each element with the scale of its own group; the padding is kept in the result (finding).", "quantifier": "all shapes, group sizes and group dimensions (non-negative)", "why_tests_cant": "Universal over shapes.", "anchors": ["src/brevitas/core/function_wrapper/shape.py:OverSubChannelBlockView", "src/brevitas/core/function_wrapper/shape.py:DynamicOverSubChannelBlockView", "src/brevitas/utils/torch_utils.py:padding"]}
{"id": "C31", "title": "Dynamic group-wise activations on the last dimension use the configured group size", "statement": "For activations grouped along the last dimension every scale is computed over group_size consecutive elements. (False for the current code: the inserted axis has the wrong position, so there are group_size groups of size/group_size elements; the proved theorems give the actual block size.)", "quantifier": "all shapes and group sizes", "why_tests_cant": "Universal; passes accidentally when size = group_size^2.", "anchors": ["src/brevitas/core/function_wrapper/shape.py:DynamicOverSubChannelBlockView", "src/brevitas/quant/solver/act.py"]}
{"id": "C32", "title": "QCDQ export of activations is equivalent to fake quantization", "statement": "The exported quantize-clip-dequantize sequence computes the same value as the library's fake quantization, for every supported bit width, sign and narrow flag, whenever the (non-negative) zero point is even or the input is not exactly half-way between two grid points, and is within one grid step otherwise (odd zero points at half-way inputs round differently in the exported operator); configurations the target cannot express and any other rounding mode are rejected; clip nodes are omitted only when the storage type enforces the range.", "quantifier": "all inputs, scales, zero points, bit widths 2..8 (32)", "why_tests_cant": "Universal over inputs; omitted clip must be justified for every code.", "anchors": ["src/brevitas/export/common/handler/qcdq.py", "src/brevitas/export/common/handler/base.py:ClipMixin"]}
{"id": "C33", "title": "QCDQ export of weights and bias dequantizes to the same values", "statement": "The exported integer weights/bias followed by the dequantize node give exactly the fake-quantized parameter.", "quantifier": "all weights, scales, zero points, bit widths", "why_tests_cant": "Universal over weights.", "anchors": ["src/brevitas/export/common/handler/qcdq.py:QCDQCastWeightQuantProxyHandlerMixin", "src/brevitas/export/common/handler/qcdq.py:CDQCastBiasQuantProxyHandlerMixin"]}
{"id": "C34", "title": "Truncation keeps the most significant bits", "statement": "Integer truncation from b_in to b_out bits divides the integer representation by 2^(b_in-b_out) with the configured rounding; with FLOOR and zero point 0 it is an arithmetic right shift and the result always fits b_out bits; with other modes it exceeds the range by at most one, at the top only (and does so for the default ROUND mode); the exported graph saturates instead. With a non-zero zero point a zero input is not preserved.", "quantifier": "all integer codes, all bit-width pairs", "why_tests_cant": "Only the topmost codes violate the range.", "anchors": ["src/brevitas/core/quant/int.py:TruncIntQuant"]}
{"id": "C35", "title": "Quantized average pooling equals sum-then-truncate", "statement": "The truncating average pool multiplies the average by the window size, recovering the exact integer sum of the window, and truncates it; the declared sum width is sufficient for unsigned codes of at least two bits and narrow-range signed codes (not for full-range signed codes); for power-of-two windows and equal input/output widths the result is the average up to one scale; the adaptive variant coincides with it when the output size divides the input size and uses a wrong window size for some other sizes.", "quantifier": "all window sizes and inputs; all input/output sizes", "why_tests_cant": "Universal; the wrong sizes are sparse.", "anchors": ["src/brevitas/nn/quant_avg_pool.py:TruncAvgPool2d", "src/brevitas/nn/quant_avg_pool.py:TruncAdaptiveAvgPool2d"]}
{"id": "C36", "title": "Batch-norm merging preserves the layer function", "statement": "Merging a batch norm into the preceding linear, (grouped, strided, dilated) convolution, transposed convolution or batch-norm layer leaves the composed evaluation-mode function unchanged for every input, as does merging a whole chain and loading a batch norm into a scale-bias layer; a layer module called from a second place is changed there as well.", "quantifier": "all weights, biases (or none), BN statistics with positive variance + eps, all inputs", "why_tests_cant": "Universal over real parameters.", "anchors": ["src/brevitas/nn/utils.py:merge_bn", "src/brevitas/nn/utils.py:mul_add_from_bn", "src/brevitas/graph/fixed_point.py:MergeBatchNorm"]}
{"id": "C37", "title": "Cross-layer equalization preserves the network function", "statement": "For traced graphs of supported layers, channel-wise positively homogeneous operators and additions, every region the walk accepts is closed, all factors are positive, and any number of equalization passes leaves every other node (in particular the outputs) unchanged for all inputs; values inside a region are divided by the factors, and the product of the ranges of source and sink is shared between them in the proportion 1-alpha to alpha (equal ranges for alpha=1/2). This fails when a constant is added between source and sink, for gated residuals a*b+c, and when a module is called from two places, all of which the walk accepts.", "quantifier": "all weights, biases, inputs, channel offsets, alpha", "why_tests_cant": "Universal over weights and inputs.", "anchors": ["src/brevitas/graph/equalize.py:_cross_layer_equalization", "src/brevitas/graph/equalize.py:find_sinks"]}
{"id": "C38", "title": "Channel splitting preserves the network function", "statement": "For traced graphs of supported layers, channel-wise positively homogeneous operators and additions: splitting any set of distinct channels of a region in input or output mode keeps every node outside the region unchanged for all inputs, inside it the original channels keep their place (halved when split in output mode) and copies are appended; running the whole pass over the cleaned regions, with whatever channels the criterion picks, leaves all outputs unchanged. This fails when a constant is added between source and sink in output mode, and for a module called from a second place.", "quantifier": "all weights, biases, inputs, all duplicate-free channel lists, both split modes", "why_tests_cant": "Universal.", "anchors": ["src/brevitas/graph/channel_splitting.py:_split_channels", "src/brevitas/graph/channel_splitting.py:_split_channels_region"]}
{"id": "C39", "title": "GPTQ result is independent of the block partition and lies on the grid", "statement": "For weight quantizers whose value of a column depends on that column only (fixed scales), the blocked column-wise update returns the same weights for every block size, equal to the textbook one-column-at-a-time algorithm, for any processing order; every final weight is a quantized value and quantizing the final weights again leaves them unchanged; rescaling the inverse-Hessian factor changes nothing. With a scale computed from the weights being updated, the result depends on the number of blocks and is not on its own grid.", "quantifier": "all weights, inverse Hessian factors (non-zero diagonal), quantizers, block sizes", "why_tests_cant": "Universal; requires induction over columns.", "anchors": ["src/brevitas/graph/gptq.py:GPTQ.single_layer_update"]}
{"id": "C40", "title": "GPTQ Hessian accumulation is batch-order and batch-split independent", "statement": "After any non-empty sequence of calibration batches the accumulated matrix equals (2/N) times the sum of the outer products of all processed samples, N being the total batch size; hence neither the order of the batches nor the way samples are grouped into batches matters.", "quantifier": "all batch sequences", "why_tests_cant": "Unbounded sequences of batches.", "anchors": ["src/brevitas/graph/gptq.py:GPTQ.update_batch"]}
{"id": "C41", "title": "Concatenation collapsing preserves the graph function", "statement": "Collapsing nested concatenations preserves every remaining value of the traced graph, keeps every other node and terminates with nothing left to collapse, provided no concatenation is an operand of concatenations more than once; when an inner concatenation is listed twice, or is shared so that collapsing makes it appear twice, one copy of its data is lost.", "quantifier": "all operand lists", "why_tests_cant": "Universal over graphs.", "anchors": ["src/brevitas/graph/fixed_point.py:CollapseConsecutiveConcats"]}
{"id": "C42", "title": "Moving a batch norm before a concatenation preserves the function", "statement": "Splitting a batch norm over the operands of a concatenation preserves the evaluation-mode function when the epsilon of the original layer is the default; otherwise epsilon is lost and the function changes, and the inserted modules start in training mode.", "quantifier": "all operand sizes, BN parameters", "why_tests_cant": "Universal.", "anchors": ["src/brevitas/graph/fixed_point.py:MoveSplitBatchNormBeforeCat"]}
{"id": "C43", "title": "Strided 'same' padding gives ceil(input/stride) outputs", "statement": "Strided convolutions with padding='same' produce exactly ceil(in/stride) outputs per dimension, each equal to the zero-extended correlation at o*stride - pad//2, where pad is the least total padding that fits that many outputs and the extra element is at the end. Holds for 1-D and 2-D, and for 3-D unless only the depth needs padding, in which case no padding is applied.", "quantifier": "all input sizes, kernel sizes, strides, dilations", "why_tests_cant": "Universal over sizes.", "anchors": ["src/brevitas/nn/quant_conv.py:QuantConv2d.conv2d_same_zeros_pad_stride"]}
{"id": "C44", "title": "Replacing adaptive average pooling by average pooling is exact", "statement": "The replacement average pool (kernel, stride) has the same windows as adaptive pooling whenever the output size divides the input size, and no replacement happens otherwise.", "quantifier": "all sizes", "why_tests_cant": "Universal over sizes.", "anchors": ["src/brevitas/graph/per_input.py:AdaptiveAvgPoolToAvgPool"]}
{"id": "C45", "title": "Reverse-direction recurrent outputs are aligned with the input sequence", "statement": "For a reversed recurrent layer the output at position t is the state after consuming positions T-1..t, and the final state is the one at position 0; the forward layer is the mirror image.", "quantifier": "all sequence lengths, cells and inputs", "why_tests_cant": "Universal over sequences.", "anchors": ["src/brevitas/nn/quant_rnn.py:_QuantRNNCell.forward", "src/brevitas/nn/mixin/base.py:QuantRecurrentLayerMixin.pack_quant_outputs"]}
{"id": "C46", "title": "Initial recurrent states are routed to their layers", "statement": "Layer l, direction d of a recurrent stack receives the initial state at index num_directions*l+d. (True for bidirectional stacks; false for unidirectional stacks with more than one layer.)", "quantifier": "all numbers of layers and directions", "why_tests_cant": "Multi-layer unidirectional stacks with explicit initial state are rarely tested.", "anchors": ["src/brevitas/nn/quant_rnn.py:QuantRecurrentStackBase.forward"]}
{"id": "C47", "title": "Calibration and quantization-disabling contexts restore the model", "statement": "After leaving the calibration context, whatever happened inside, all quantizers are enabled, observer mode is off, every quantizer has the training flag the model had at construction, the return_quant_tensor flags are those before entering and no counter is below its number of collection steps; inside, parameter and truncation quantizers are off, activation quantizers observe in training mode, and statistics are collected without limit as cumulative averages. (Not restored: quantizers the user had disabled, the number of collection steps; enabled=False is not a no-op.)", "quantifier": "all models (trees of quantizers) and all histories inside the context", "why_tests_cant": "Universal over models and histories.", "anchors": ["src/brevitas/graph/calibrate.py:calibration_mode", "src/brevitas/graph/calibrate.py:DisableEnableQuantization", "src/brevitas/graph/calibrate.py:finalize_collect_stats"]}
{"id": "C48", "title": "Bias correction removes the mean output error", "statement": "After bias correction the average over the calibration calls of the corrected quantized output mean equals that of the float output when the bias is not quantized, and differs by at most twice the bias rounding error otherwise; absent biases are created unless disabled. Calls count equally whatever their batch size.", "quantifier": "all sequences of calibration batches", "why_tests_cant": "Unbounded batch sequences.", "anchors": ["src/brevitas/graph/calibrate.py:_BiasCorrection"]}
{"id": "C49", "title": "Cached inference weights are never stale within the caching contract", "statement": "Outside export mode a weight proxy always returns the quantization of the weight it is given, whatever the history of caching, training and weight updates; the cache holds exactly the quantization (or its metadata) of the weight at the first evaluation call with caching on since caching was last turned off. (The stronger reading, that an exported or inference-mode layer never computes with an outdated cached weight, is false: training and weight updates do not invalidate the cache.)", "quantifier": "all histories of train/eval/forward/enable/disable/weight-update calls", "why_tests_cant": "Unbounded histories.", "anchors": ["src/brevitas/proxy/parameter_quant.py:WeightQuantProxyFromInjectorBase"]}
{"id": "C50", "title": "State-dict key migration is lossless", "statement": "Renaming state-dict keys by prefix or postfix moves exactly the matching entries with their values and keeps all others, provided no target key is taken by another entry (otherwise a value is lost); a second pass is a no-op when no renamed key matches again.", "quantifier": "all dictionaries and prefixes", "why_tests_cant": "Universal over dictionaries.", "anchors": ["src/brevitas/nn/utils.py:rename_state_dict_by_prefix", "src/brevitas/nn/utils.py:rename_state_dict_by_postfix"]}
{"id": "C51", "title": "Straight-through gradients are the documented masks", "statement": "The backward pass of straight-through rounding is the identity. Fake quantization with the standard clamp passes the gradient of the input exactly where the rounded code lies within the integer range and blocks it outside, with the STE clamp it passes everything; the gradient of the scale is (code - zero point) - x/scale inside the range and the clipped code outside. The gradient equals the derivative of the surrogate in which every rounding is replaced by a constant offset. Binary, clamped binary, ternary and abs-with-sign gradients are the documented masks.", "quantifier": "all inputs, scales, ranges", "why_tests_cant": "Universal; boundaries matter.", "anchors": ["src/brevitas/function/ops_ste.py", "src/brevitas/ops/autograd_ste_ops.py"]}
{"id": "C52", "title": "Learned and stochastic rounding stay within one integer of the input", "statement": "Stochastic rounding returns the floor or floor+1 for every random draw, never moves an integer, is unbiased (its expectation over a uniform draw is the input), and, only in evaluation with deterministic inference, rounds to nearest instead. Learned rounding returns a value between floor and floor+1 in training and exactly one of the two at evaluation; evaluation picks the one nearer to the soft value of training (any positive temperature, and the default stretch). (False: a negative temperature is accepted and makes evaluation round against training; an integer weight can be moved up a whole step.)", "quantifier": "all inputs, all random draws / learned parameters", "why_tests_cant": "Universal over random draws and parameters.", "anchors": ["src/brevitas/core/function_wrapper/stochastic_round.py", "src/brevitas/core/function_wrapper/learned_round.py"]}
{"id": "C53", "title": "Requantizer signedness follows the signs of the operands", "statement": "When the sign analysis of quantize() decides that the requantizer of a node is unsigned, every element of every operand of the node is non-negative in every execution, provided no graph input or attribute is reached by the analysis, the quantized activations it reaches are unsigned (or expose a signed input quantizer) and additions have non-negative constants and multipliers; unsigned activations always give an unsigned requantizer and a layer operand a signed one. Without the proviso this is false: in x + relu(f(x)) the network's own input quantizer, created signed, ends up unsigned, and graph inputs and constant operands are ignored by the analysis.", "quantifier": "all graphs", "why_tests_cant": "Universal over graphs.", "anchors": ["src/brevitas/graph/quantize_impl.py:are_inputs_unsigned"]}
{"id": "C54", "title": "Floating-point evaluation recovers the exact integer code", "statement": "In IEEE binary arithmetic with p bits of precision, dividing a stored value by its (normal) scale, adding the zero point and rounding recovers the integer code exactly, for all codes n and zero points z with |n| < 2^(p-3) and |n - z| <= 2^(p-3) whose value does not overflow: 21-bit codes in float32 and every 8-bit code with every 8-bit zero point in float16. Consequently quantizing twice equals quantizing once in floating point, and the unrounded value stays within the tolerance used by is_valid. In bfloat16, where int() divides in single precision, every code at distance at most 128 from the zero point is recovered, but this fails beyond: an unsigned code 255 is read back as 254 and a saturated signed value moves when quantized again.", "quantifier": "all codes |k| <= 2^20, all normal single-precision scales with k*s in range", "why_tests_cant": "2^20 codes times 2^32 scales cannot be enumerated.", "anchors": ["src/brevitas/quant_tensor/int_quant_tensor.py:IntQuantTensor.int", "src/brevitas/core/quant/int_base.py:IntQuant"]}
{"id": "C55", "title": "The inference-only quantizer agrees with the training-time quantizer", "statement": "The compiled inference handler for integer quantization computes the same value as the training-time quantizer; the floating-point inference handler differs from the training-time minifloat quantizer for some formats.", "quantifier": "all inputs, scales, zero points, bit widths", "why_tests_cant": "Universal.", "anchors": ["src/brevitas/export/inference/handler.py"]}
{"id": "C56", "title": "Bit-width regularization reports the size-weighted average", "statement": "The weighted bit-width losses (weights by size, activations by size, layer outputs by operations) report the element-weighted mean of the bit widths of the calls since the last reset; it lies between the smallest and largest bit width, does not change with repeated identical passes or with the batch size (activations, outputs), and the non-averaged form sums to it; nothing to report raises.", "quantifier": "all models and bit widths", "why_tests_cant": "Universal.", "anchors": ["src/brevitas/loss/weighted_bit_width.py"]}
{"id": "C57", "title": "Mean-squared-error scale search returns a valid best candidate", "statement": "The grid search gives every channel, independently of the other channels, the candidate with the smallest loss among those tried, never worse than the starting statistic; the Fibonacci search always returns a candidate inside the bracket [init/num, init] whatever the losses, and for a strictly unimodal loss without ties one within (init - init/num)/F(num) of the minimum; both leave the local-loss and observer flags of the quantizer as they were. (False: one NaN loss freezes the grid search at an unevaluated candidate; a negative starting value makes the Fibonacci search return a worse candidate than the start.)", "quantifier": "all loss functions, all initial values, all iteration counts", "why_tests_cant": "Universal over loss functions.", "anchors": ["src/brevitas/core/stats/stats_op.py:MSE"]}
{"id": "C58", "title": "Replacing average pooling by a depthwise convolution is exact", "statement": "The pass that turns average pooling into a constant-weight depthwise convolution preserves every output (before weight quantization) in any number of spatial dimensions, when output sizes are rounded down and the padding is either counted or absent; count_include_pad=False with padding and ceil_mode=True are silently changed.", "quantifier": "all input sizes, kernels, strides, paddings and inputs, any number of spatial dimensions", "why_tests_cant": "Universal over sizes and inputs.", "anchors": ["src/brevitas/graph/per_input.py:AvgPoolToQuantDepthwiseConv"]}
{"id": "C59", "title": "Each GPTQ update is the optimal compensation", "statement": "Given the upper Cholesky factor of the inverse Hessian: once a column is fixed to its quantized value, the update of the remaining columns minimises the quadratic output error among all updates of those columns, at cost error^2; the final total error of a row is exactly the sum of the squared step errors; and the quadratic error with the damped Hessian is 2/N times the squared output error on the calibration data plus damping times the squared weight change.", "quantifier": "all Hessians with a factor, weights, quantizers with column-local values, processing orders, block sizes, alternative updates", "why_tests_cant": "Optimality over a continuum of alternatives.", "anchors": ["src/brevitas/graph/gptq.py:GPTQ.single_layer_update"]}
{"id": "C60", "title": "GPTQ preprocessing never breaks the factorisation nor the calibration outputs", "statement": "For every calibration data set, exactly the columns of inputs never active are zeroed, which leaves all calibration outputs unchanged, and the matrix handed to the Cholesky factorisation (unit diagonal for dead inputs, plus positive damping) is symmetric positive definite.", "quantifier": "all calibration sequences, weights, percdamp > 0", "why_tests_cant": "Unbounded data.", "anchors": ["src/brevitas/graph/gptq.py:GPTQ.single_layer_update"]}
{"id": "C61", "title": "GPFQ greedy path following", "statement": "At the end the residual equals the float output on float inputs minus the output of the layer with its final quantized weights on quantized inputs; each column target minimises the remaining squared error over all reals and, for a nearest-point quantizer, its quantized value minimises it over the grid. The row sampling works unless the largest sampled index equals the number of rows of a later batch, in which case it is out of range.", "quantifier": "all weights, inputs, column-local quantizers, processing orders", "why_tests_cant": "Universal and needs induction over columns.", "anchors": ["src/brevitas/graph/gpfq.py:GPFQ.single_layer_update", "src/brevitas/graph/gpfq.py:GPFQ.update_batch"]}
{"id": "C62", "title": "GPFQv2 computes the targets of GPFQ", "statement": "The memory-efficient version chooses every column target from the inner products of float and quantized inputs exactly as GPFQ does, except that the damping is added to the denominator; without damping the resulting weights are identical. With its default damping it shrinks the very first column towards zero although no rounding error exists yet.", "quantifier": "all weights, inputs, column-local quantizers, processing orders, any symmetric root of the damped covariance", "why_tests_cant": "Universal; relates two algorithms.", "anchors": ["src/brevitas/graph/gpfq.py:GPFQv2.single_layer_update", "src/brevitas/graph/gpfq.py:GPFQv2.update_batch"]}
{"id": "C63", "title": "In-place calibration reaches the layer and slices the right column", "statement": "For linear and convolution weights of every shape the flattened matrix is a view, so the update reaches the layer; for transposed convolutions with at least two input and output channels and more than one kernel position it is a copy and the layer keeps its old weights. The per-dimension slice of a column is its row-major multi-index for every convolution shape, but for 3-D transposed convolutions with in != out channels it addresses another entry.", "quantifier": "all shapes, all column indices", "why_tests_cant": "Universal over shapes; the lost update raises no error.", "anchors": ["src/brevitas/graph/gptq.py:GPTQ.single_layer_update", "src/brevitas/graph/gpxq.py:GPxQ.get_quant_weights"]}
{"id": "C64", "title": "A torch LSTM checkpoint loads to the same function", "statement": "A quantized LSTM layer with all quantizers disabled, loaded from a torch.nn.LSTM layer checkpoint whose entries come in any order, computes the torch recurrence (gate order i, f, g, o, both biases added) at every time step and in both directions.", "quantifier": "all weights, sizes, sequences, entry orders", "why_tests_cant": "Universal over weights and sequences.", "anchors": ["src/brevitas/nn/quant_rnn.py:_QuantLSTMLayer._load_from_state_dict", "src/brevitas/nn/quant_rnn.py:_QuantLSTMCell.forward_iter"]}
{"id": "C65", "title": "Shared input weights are shared gate by gate", "statement": "With shared_input_hidden_weights the reverse direction uses, for each gate, the input weight of the same gate of the forward direction. (True for the RNN and for the cell and output gates of the LSTM; false for the input and forget gates, which are swapped, and with coupled gates the input gate is not shared.)", "quantifier": "all configurations", "why_tests_cant": "Weight identity between gates is not visible in shapes or in random-input smoke tests.", "anchors": ["src/brevitas/nn/quant_rnn.py:_QuantLSTMLayer.__init__", "src/brevitas/nn/quant_rnn.py:_QuantLSTMLayer.weights_to_share"]}
{"id": "C66", "title": "Torch recurrent checkpoints are routed to their layer and direction", "statement": "Loading a torch recurrent checkpoint into a stack of at most ten layers moves every parameter to its layer and direction and keeps all other entries; a checkpoint saved by the library itself is untouched when no key contains \"_l\". With eleven or more layers, or a module name containing \"_l0\", loading fails or loses entries.", "quantifier": "all dictionaries, prefixes, layer counts", "why_tests_cant": "Substring matching on names depends on layer counts and module names that tests do not vary.", "anchors": ["src/brevitas/nn/quant_rnn.py:QuantRecurrentStackBase._load_from_state_dict"]}
{"id": "C67", "title": "Recurrent layers can be run chunk by chunk", "statement": "Running a forward recurrent layer on a prefix and then on the rest from the returned state gives the outputs and final state of one run on the whole sequence, when the state quantizers are idempotent.", "quantifier": "all sequences, cells, weights, initial states", "why_tests_cant": "Unbounded sequences.", "anchors": ["src/brevitas/nn/quant_rnn.py:_QuantRNNLayer.forward", "src/brevitas/nn/quant_rnn.py:_QuantLSTMLayer.forward", "src/brevitas/nn/mixin/base.py:QuantRecurrentLayerMixin.maybe_quantize_state"]}
{"id": "C68", "title": "Coupled gates keep the cell state bounded", "statement": "With coupled input and forget gates and an unquantized cell state, the cell state never leaves an interval containing the initial value and the range of the cell gate, for any sequence length.", "quantifier": "all sequences and weights", "why_tests_cant": "Unbounded sequences.", "anchors": ["src/brevitas/nn/quant_rnn.py:_QuantLSTMCell.forward_iter"]}
{"id": "C69", "title": "Norm correction installs the measured statistics", "statement": "After norm correction the batch-norm running mean equals the one measured under quantization. (The running variance does not: it becomes the geometric mean of the old and the measured variance.)", "quantifier": "all old and measured statistics", "why_tests_cant": "Universal over statistics.", "anchors": ["src/brevitas/graph/calibrate.py:norm_correction_mode"]}
{"id": "C70", "title": "Weight clipping is the nearest point of the interval", "statement": "Float weight clipping returns the nearest value in [-t, t], leaves values inside alone and is idempotent.", "quantifier": "all thresholds and weights", "why_tests_cant": "Universal over reals.", "anchors": ["src/brevitas/graph/calibrate.py:ClipFloatWeights"]}
{"id": "C71", "title": "Inference mode computes what evaluation computes", "statement": "For every program that interleaves weight updates, activation-quantizer updates, train/eval switches, forward passes and quant_inference_mode sessions (with or without cached weights, enabled or not), every forward pass inside and outside the sessions computes with the quantization of the current weight and activation parameters, and layers return quantized tensors again after each session. Entering a session in training mode fails.", "quantifier": "all programs in which sessions are entered in evaluation mode and run at least one forward pass; all quantizers whose handler arithmetic agrees with them (C55)", "why_tests_cant": "Unbounded interleavings of sessions and updates; the caches, handlers and hooks carry state between sessions.", "anchors": ["src/brevitas/export/inference/manager.py:quant_inference_mode", "src/brevitas/common.py:ExportMixin", "src/brevitas/proxy/parameter_quant.py:WeightQuantProxyFromInjectorBase", "src/brevitas/proxy/runtime_quant.py:ActQuantProxyFromInjectorBase"]}
{"id": "C72", "title": "Leaving inference mode restores the model", "statement": "After a quant_inference_mode session the model behaves as if the session had not happened. (False in four ways: the activation cache is never cleared, so scale() keeps reporting the old value; weight caching stays on unless cache_quant_weight was set; a session without a forward pass leaves its hook behind, which later puts the model in export mode for good or makes training raise; a disabled activation quantizer makes the second forward pass of a session fail.)", "quantifier": "all sessions and later programs", "why_tests_cant": "Needs sequences of sessions, updates and forward passes that unit tests do not enumerate.", "anchors": ["src/brevitas/export/inference/manager.py:quant_inference_mode.__exit__", "src/brevitas/proxy/runtime_quant.py:retrieve_attribute"]}
{"id": "C73", "title": "The variants of each straight-through operation agree", "statement": "For each straight-through operation (round, floor, ceil, round-to-zero, DPU round, clamp, binary and ternary sign, ...) the plain, in-place and native implementations return the same value for all inputs, and tensor clamp equals scalar clamp for ordered bounds. (False for crossed bounds: the tensor clamp returns the lower bound, the scalar clamp the upper one.)", "quantifier": "all inputs and bounds", "why_tests_cant": "Universal; crossed bounds are not tested.", "anchors": ["src/brevitas/function/ops_ste.py", "src/brevitas/ops/autograd_ste_ops.py", "src/brevitas/function/ops.py"]}
{"id": "C74", "title": "Gradients of minifloat quantization", "statement": "For minifloat quantization the gradient of a normal input is q/u (quantized over unquantized value), for a subnormal input it is one, and saturated inputs get none. (So the claim that the straight-through gradient is the identity is false for normal values, where the rounding step depends on the input.)", "quantifier": "all formats, inputs, scales", "why_tests_cant": "Universal; the gradient of the internal scale is easy to miss.", "anchors": ["src/brevitas/core/quant/float.py:FloatQuant", "src/brevitas/utils/quant_utils.py", "src/brevitas/function/ops_ste.py"]}
{"id": "C75", "title": "Learned rounding starts from the float weight", "statement": "With the documented initialisation of the learned rounding parameter, the soft-rounded weight in training mode equals the original float weight exactly (before clamping to the integer range), and evaluated immediately it is the weight rounded to nearest.", "quantifier": "all weights, scales, stretch parameters gamma < 0, zeta > 1", "why_tests_cant": "Universal over real weights; involves exp/log.", "anchors": ["src/brevitas_examples/imagenet_classification/ptq/learned_round_utils.py:insert_learned_round_quantizer", "src/brevitas/core/function_wrapper/learned_round.py"]}
{"id": "C76", "title": "Half-quadratic optimisation keeps the best candidate and is repeatable", "statement": "The half-quadratic scale and zero-point optimisers return a candidate no worse than every earlier one and stop at the first non-improvement; on weights that are exactly representable the closed-form updates reproduce the scale and the zero point; running an optimiser again on the same weights gives the same result. (False: the scale update subtracts the zero point twice, and the zero-point optimiser keeps its grown beta between calls, so a second call can return a worse zero point.)", "quantifier": "all losses, updates, iteration counts, weights", "why_tests_cant": "Universal; needs repeated calls and asymmetric quantizers.", "anchors": ["src/brevitas/core/stats/stats_op.py:HalfQuadraticOptimizerScale", "src/brevitas/core/stats/stats_op.py:HalfQuadraticOptimizerZeroPoint"]}
{"id": "C77", "title": "Operands of additions and concatenations share quantizer metadata after quantize()", "statement": "If quantize()'s insertion and alignment passes succeed and all quantizers use one bit width, then in the resulting graph every addition has operands that are quantized with one common scale and every concatenation operands with one common scale, sign and bit width. With different bit widths for activations and requantizers this is false, because the alignment check compares the scaling modules and ignores the bit width.", "quantifier": "all traced graphs, all quantizer maps with one bit width, all iteration limits, all scale values", "why_tests_cant": "Universal over graphs; a test fixes a handful of topologies.", "anchors": ["src/brevitas/graph/quantize_impl.py:are_inputs_quantized_and_aligned", "src/brevitas/graph/quantize_impl.py:residual_handler", "src/brevitas/graph/quantize.py:align_input_quant"]}
{"id": "C78", "title": "Graphs that quantize() can never align", "statement": "The alignment loop never succeeds, for any iteration limit, (a) on a graph in which an operand of an addition or concatenation is produced by the tensor method transpose, because the check stops there while the rewriting follows it, and (b) on a network computing x + relu(f(x)) and x + relu(g(x)), because aligning either addition replaces the quantizer of the shared operand and misaligns the other one; quantize() then raises after its 9999 iterations.", "quantifier": "all graphs with such an operand; all iteration limits", "why_tests_cant": "Non-termination of an unbounded loop cannot be shown by running it.", "anchors": ["src/brevitas/graph/quantize_impl.py:residual_handler", "src/brevitas/graph/quantize_impl.py:recursive_input_handler"]}
{"id": "C79", "title": "quantize() preserves the float function of the network", "statement": "The insertion and alignment passes of quantize() change a traced network only by inserting or exchanging quantizers: if every quantizer were ideal (the identity), each original node of the resulting graph would compute exactly the value it computed before; the resulting graph is well formed (operands before uses, distinct nodes, every called module registered) and keeps every original node.", "quantifier": "all traced graphs whose module names do not clash with the generated ones, all inputs, all semantics of layers and functions", "why_tests_cant": "Universal over graphs and over the functions computed by the layers.", "anchors": ["src/brevitas/graph/quantize_impl.py:inp_placeholder_handler", "src/brevitas/graph/quantize_impl.py:act_handler", "src/brevitas/graph/quantize_impl.py:add_output_quant_handler", "src/brevitas/graph/quantize_impl.py:residual_handler"]}
{"id": "C80", "title": "Integer quantization in floating point saturates and is monotone", "statement": "Evaluated in IEEE binary arithmetic, IntQuant maps every input other than NaN - including infinities and inputs whose quotient by the scale overflows - to an integer between the two clamping bounds, and a larger input never gets a smaller code. For 32-bit integers in float32 the upper bound itself is wrong: 2^31 - 1 is rounded to 2^31, so the code 2^31 is emitted.", "quantifier": "all floating-point inputs, positive finite scales, finite zero points, all precisions of at least 4 bits", "why_tests_cant": "2^32 inputs times 2^31 scales, with overflow cases rarely hit by random tests.", "anchors": ["src/brevitas/core/quant/int_base.py:IntQuant.to_int", "src/brevitas/function/ops.py:tensor_clamp", "src/brevitas/function/ops.py:max_int"]}
{"id": "C81", "title": "Percentile statistics are order statistics of the data", "statement": "AbsPercentile(q), when it returns, returns the absolute value of an element of its input such that at least round-half-up(q% of n) elements are no larger in absolute value and fewer than that are strictly smaller; NegativePercentileOrZero(q) likewise returns the ceil(q% of n)-th smallest element, or zero if that is positive. The results do not depend on the order of the elements and grow with q; q = 100 gives the maximum. In two-dimensional mode each slice is treated separately. The statistic is defined exactly when the rank is at least one, so small inputs or a zero low percentile raise. Evaluated in double precision the ranks stay within the tensor and differ from the exact percentage by at most one half (nearest) or one (ceiling) plus n*2^-49; the low rank is off by one already for .01*7*100.", "quantifier": "all finite tensors, all percentiles", "why_tests_cant": "Universal over tensor sizes and percentiles; rank boundaries are hit only for particular sizes.", "anchors": ["src/brevitas/core/stats/stats_op.py:AbsPercentile", "src/brevitas/core/stats/stats_op.py:NegativePercentileOrZero", "src/brevitas/core/stats/stats_op.py:PercentileInterval"]}
{"id": "C82", "title": "Shifted percentile quantizers cover the interval between the percentiles", "statement": "With the zero point from NegativePercentileOrZero(low_q) and the scale from PercentileInterval(low_q, high_q) (the ShiftedUint8ActPercentile pair), calibrating on a batch in which fewer than high_q% of the elements (minus one half) are negative gives an integer zero point inside the unsigned range, and fewer than (100 - high_q + low_q)% of the elements (plus one half) are reproduced with an error above half a scale. Without that condition it fails: on an all-negative batch every element can be off by more than a hundred scales.", "quantifier": "all calibration data, all percentiles and bit widths", "why_tests_cant": "Universal over data; the failing case needs an all-negative tensor.", "anchors": ["src/brevitas/core/stats/stats_op.py:PercentileInterval", "src/brevitas/core/zero_point.py:ParameterFromRuntimeZeroPoint", "src/brevitas/quant/shifted_scaled_int.py:ShiftedUint8ActPerTensorFloat"]}
{"id": "C83", "title": "Per-channel scales come from exactly the weights of their channel", "statement": "With per-output-channel scaling, whichever dimension holds the output channels (1 for transposed convolutions) and however many layers share the quantizer, the scale has one entry per channel in a shape that broadcasts along that dimension, and the entry applied to a weight is the statistic of exactly the weights of its own channel in all sharing layers; weights of other channels have no influence. Per-tensor scaling uses all weights of all layers, MAX_AVE the mean of the channel statistics, and activation statistics the slice of the channel dimension moved first. If the channel count is not the size of the output channel dimension - every transposed convolution with groups - the module raises.", "quantifier": "all weight shapes, values, statistics and sets of sharing layers", "why_tests_cant": "Universal over shapes and permutations of dimensions; a wrong slice gives plausible scales.", "anchors": ["src/brevitas/function/shape.py:over_output_channels", "src/brevitas/core/function_wrapper/shape.py:OverOutputChannelView", "src/brevitas/core/stats/stats_wrapper.py:_ParameterListStats", "src/brevitas/quant/solver/weight.py:SolveWeightScalingPerOutputChannelShapeFromModule"]}
{"id": "C84", "title": "Equalization scales the right axis of every weight layout", "statement": "For a linear, convolution, transposed convolution or norm layer, the axis size equalization compares equals the layer's number of input (output) channels exactly for layers that are ordinary or depthwise as sinks (and not grouped-transposed as sources); for those, scaling the weight along the chosen axis compensates a scaled input (scales the outputs), and equalizing the regions of a concatenation-free graph of such layers raises nothing and leaves every graph output unchanged. A single sink with another grouping is skipped. With two sinks, or with a grouped transposed source, layers of other groupings are not skipped: depthwise convolutions with several inputs per group, depthwise transposed convolutions and grouped pairs have their function changed, and a depthwise transposed pair with biases raises. The ranges it computes are the largest magnitudes of the weights writing (reading) each channel, and with alpha = 1/2 the largest magnitude writing a channel over a region's sources and the largest one reading it over its sinks become equal, the geometric mean of the old ones.", "quantifier": "all layer types, shapes, groups, weights, factors and concatenation-free graphs", "why_tests_cant": "Universal over layouts, group counts and graphs; the failing groupings need particular combinations of layers whose wrong sizes coincide.", "anchors": ["src/brevitas/graph/equalize.py:_get_input_axis", "src/brevitas/graph/equalize.py:_get_output_axis", "src/brevitas/graph/equalize.py:_cross_layer_equalization", "src/brevitas/graph/equalize.py:get_weight_source", "src/brevitas/graph/equalize.py:get_weight_sink"]}
{"id": "C85", "title": "Activation equalization preserves the model", "statement": "The recorded calibration value of an input feature is the largest magnitude of that feature over all calibration batches, and it is attained. Layerwise activation equalization of a layer that saw a calibration batch replaces it by a scaled-input layer computing the same function (and does replace every ordinary or depthwise layer, with exactly the inverse factors); graph activation equalization leaves every output of a concatenation-free graph unchanged; self-attention is preserved and attention with three different tensors is skipped. It fails for: the 'range' statistic, which is not the range of the feature; an unbatched convolution input with as many positions as channels; cross-attention with one memory for key and value, which always raises at the next forward; and attention whose query is its key but not its value, where the value is silently replaced. Layerwise equalization raises exactly for layers no calibration batch reached.", "quantifier": "all weights, calibration data, alpha, graphs and attention inputs", "why_tests_cant": "Universal over data and graphs; the attention failures depend on tensor identity.", "anchors": ["src/brevitas/graph/equalize.py:activation_equalization_mode", "src/brevitas/graph/equalize.py:LayerwiseActivationEqualization", "src/brevitas/graph/equalize.py:GraphActivationEqualization", "src/brevitas/nn/equalized_layer.py:EqualizedModule"]}
{"id": "C86", "title": "Equalization through concatenations", "statement": "Whenever the factors an equalization region assigns to source channels and sink channels describe one consistent labelling of the values of a graph with concatenations, equalizing the region leaves every output unchanged, for any factors. For a block of layer branches (each followed by scale-invariant operators) that meet in a concatenation, with consumers that are layers or further concatenations of values with known channels read by layers, the search from any branch finds exactly the branches' layers at consecutive offsets as sources and exactly the consumers as sinks with the slice of a further concatenation they read; equalizing it raises nothing, leaves every output unchanged, divides each channel that carries channel j of the concatenation by one factor and no other channel; and that factor is computed from the largest weight magnitude writing channel j and the largest one reading it anywhere. Outside such blocks the walk does not always produce such regions: a consumer that cannot be scaled after a second concatenation is forgotten and the output changes; a value concatenated with itself behind a first concatenation is compensated only once; a value added to an operand of a second concatenation makes the transformation raise. Norm layers are never sinks of a region. Equalization through cat(c, a + b) works while cat(a + b, c) is silently skipped.", "quantifier": "all graphs with concatenations, weights, offsets and factors", "why_tests_cant": "Universal over graph shapes; the failing regions need two interacting concatenations.", "anchors": ["src/brevitas/graph/equalize.py:find_srcs", "src/brevitas/graph/equalize.py:find_sinks", "src/brevitas/graph/equalize.py:cat_handler", "src/brevitas/graph/equalize.py:find_srcs_channel_dim", "src/brevitas/graph/equalize.py:_cross_layer_equalization"]}
{"id": "C87", "title": "Equalization respects the feature axis", "statement": "When source and sink work along the same axis of the activation, weight equalization of the pair preserves its function through every positively homogeneous elementwise operator, and the axis check of activation equalization guarantees this for any two linear or convolution layers. Weight equalization has no axis check: a linear layer followed by a convolution over the other axis, with as many positions as features, has its function changed; and norms have no axis for the check of activation equalization, so a layer norm followed by such a convolution is changed too.", "quantifier": "all layers, weights, activations and homogeneous operators", "why_tests_cant": "Universal over weights; the failing case needs coinciding sizes of two different axes.", "anchors": ["src/brevitas/graph/equalize.py:_get_act_axis", "src/brevitas/graph/equalize.py:_cross_layer_equalization"]}
{"id": "C88", "title": "Standardization passes preserve the graph", "statement": "Duplicating shared stateless modules leaves what a traced graph computes unchanged, never copies a module with parameters or buffers, and afterwards only such modules are called from two nodes, provided no stateless module m lives beside a module named m_1, m_2, ... and no method is named like a module. Turning functional calls into modules succeeds and preserves the graph when no node name is a module name and the module computes the function. Removing stochastic depth calls, each with one user naming it once, preserves the graph and removes all of them. Disabling the last return_quant_tensor changes only the output's type when the last such module feeds only the output, and changes nothing when no module returns QuantTensors. Rewriting mean((2, 3)) to pooling keeps its value. Outside these conditions: a copy overwrites a user module called m_1 and the graph computes another function; a method call x.relu() beside a module relu is renamed and raises; a functional node whose name is a module name raises; a stochastic depth output used twice by one node loses an operand and one with two users raises; when the last quantized output has two users an earlier quantizer is disabled and layers after it raise; mean(dim=(2, 3)) raises, and an explicit keepdim makes the rewritten graph raise.", "quantifier": "all traced graphs, module tables, methods, inputs and module functions", "why_tests_cant": "Universal over graphs and names; the failing cases depend on the names of modules and nodes and on the number of users of a value.", "anchors": ["src/brevitas/graph/standardize.py:DuplicateSharedStatelessModule", "src/brevitas/graph/standardize.py:TorchFunctionalToModule", "src/brevitas/graph/standardize.py:RemoveStochasticModules", "src/brevitas/graph/standardize.py:DisableLastReturnQuantTensor", "src/brevitas/graph/standardize.py:MeanMethodToAdaptiveAvgPool2d", "src/brevitas/graph/base.py:CallableToModule"]}
{"id": "C89", "title": "Replacing layers by their quantized counterparts", "statement": "layerwise_quantize turns exactly the supported layers outside the blacklist into their quantized counterparts, looks into neither supported layers nor blacklisted modules, keeps all names, keeps every tensor under its name, and a second run changes nothing, provided no module object is registered twice and the model itself is not a supported layer. The new layer's arguments are the rewriter's keywords, else the attribute of the same name if the constructor takes it, with bias standing for 'the attribute is not None'. quantize() replaces each supported layer that is called once and whose class is listed in the map, and leaves other modules alone; a layer called from two nodes, or one whose class derives from a supported class without being listed (also one already quantized), always raises. After success all modules are in the mode of the model and the configuration flag is restored. Outside these conditions: a layer under two names of one module stays float under the second; a layer shared by two blocks becomes two untied layers; a blacklisted name of a shared layer is replaced instead of the other name; a model that is itself a layer stays float and gets a child with the empty name; a recurrent layer with bias=False is rebuilt with bias=True; a submodule frozen in evaluation mode ends in training mode; an exception leaves the model in evaluation mode and missing keys ignored.", "quantifier": "all module trees, layer maps, blacklists, constructor signatures and call sequences", "why_tests_cant": "Universal over module trees; tests use small models without shared modules.", "anchors": ["src/brevitas/graph/quantize_impl.py:find_module", "src/brevitas/graph/quantize_impl.py:layerwise_layer_handler", "src/brevitas/graph/quantize_impl.py:layer_handler", "src/brevitas/graph/base.py:ModuleToModule", "src/brevitas/graph/base.py:ModuleToModuleByInstance", "src/brevitas/graph/utils.py:set_module", "src/brevitas/graph/utils.py:name_from_module", "src/brevitas/graph/quantize.py:quantize", "src/brevitas/graph/quantize.py:layerwise_quantize"]}
{"id": "C90", "title": "Quantized multi-head attention computes attention", "statement": "QuantMultiheadAttention in evaluation mode computes, for every element of the batch and every position, the attention of the textbook definition with its quantizers applied to the scaled queries, keys, values, scores and weights: heads are consecutive slices of the embedding, add_bias_kv and add_zero_attn append one key each that no mask covers, boolean masks are minus infinity and float masks are added, 2-D attention masks are shared and 3-D ones indexed by batch and head, and the returned weights are the mean over heads. This holds for packed and separate projections, batch_first or not, and unbatched inputs. With the score and weight quantizers off the weights are a distribution that vanishes exactly on masked keys. When the score quantizer keeps minus infinity and the weight quantizer zero, the output ignores masked keys, other elements and other queries: causal attention depends on the past only and padding does not matter. Packed and separate projections with the same rows agree. Different key and value sizes, two float masks, and different tensors in a packed layer raise. Against the documentation: a score quantizer with finite outputs gives every masked key a positive weight; a packed layer tells self-attention by the data pointer, so a query that is a leading slice of the keys silently attends to itself only; a float key padding mask next to a boolean attention mask excludes every key with a nonzero entry instead of adding it.", "quantifier": "all layers, sizes, inputs, masks and elementwise quantizers", "why_tests_cant": "Universal over shapes, masks and inputs; tests run a few shapes without masks.", "anchors": ["src/brevitas/nn/quant_mha.py:QuantMultiheadAttention.multi_head_attention", "src/brevitas/nn/quant_mha.py:QuantMultiheadAttention.forward", "src/brevitas/nn/quant_mha.py:QuantMultiheadAttention.mha_shape_check", "src/brevitas/nn/utils.py:check_tensors_same_ptr"]}
{"id": "C91", "title": "Loading float attention checkpoints", "statement": "QuantMultiheadAttention loads a state dict of torch.nn.MultiheadAttention: each float tensor ends under the name the layer uses, in_proj tensors are cut into the three row blocks of q, k and v when the layer is not packed, the float names disappear and every other key is unchanged, provided no other key contains one of the layer's names; the layer's own checkpoints are left alone. The packed and the unpacked layer loaded from one checkpoint compute the same attention. A weight whose rows do not divide by three raises in an unpacked layer. Outside these conditions: names are matched as substrings, so a layer `attn` takes the weights of `cross_attn` when it is given the whole state dict; a bias that does not divide by three is split unevenly without an error.", "quantifier": "all state dicts, prefixes and both projection layouts", "why_tests_cant": "Universal over state dicts and prefixes; tests load one model.", "anchors": ["src/brevitas/nn/quant_mha.py:QuantMultiheadAttention._load_from_state_dict"]}
{"id": "C92", "title": "Attributes of a quantizer resolve to their definition", "statement": "Reading an attribute of an injector (a quantizer class) returns the value its definitions determine: arguments are resolved recursively, an argument nobody defines is left out when it has a default, a class is instantiated unless the name ends in _class or the definition is a nested injector, and a `this` expression is followed. Every attribute has at most one value and the access finds it whenever it exists, whatever else is defined. One access builds no attribute twice and none the requested one does not depend on; overriding attributes it does not depend on leaves its value. After an access that returns, the injector is unchanged, provided a definition turns into a class or `this` only once. Against that: an access that raises midway leaves the class a definition had chosen in place of the definition, so that quantizers derived afterwards ignore the attribute that makes the choice; a definition returning a `this` expression that gives a class is not restored even when the access succeeds.", "quantifier": "all injectors, attributes and definitions (abstract functions)", "why_tests_cant": "Universal over dependency graphs and definitions; tests read a few attributes of fixed quantizers.", "anchors": ["src/brevitas/inject/__init__.py:_ExtendedInjectorType.__getattr__", "src/brevitas/inject/__init__.py:_replace_dependency"]}
{"id": "C93", "title": "Quantizer inheritance and layer keywords", "statement": "An attribute of a quantizer class is its own definition, otherwise that of the first base that has it, own or inherited; `let` overrides exactly the given attributes. A weighted layer (QuantLinear, QuantConv) gives keyword prefix+k to attribute k of the quantizer with that prefix (input_, output_, weight_, bias_) and to nothing else; all other attributes stay those of the quantizer passed, or of the disabled one for None; a proxy passed as quantizer is used as it is, with a warning exactly when keywords of its prefix are given. Construction fails only for something that is no quantizer or for keywords setting act_impl or passthrough_act. Keywords without one of the prefixes change nothing. An activation layer gives all keywords to its activation quantizer. Against Python's rules: with two bases of common ancestry, what the left base merely inherits hides what the right base redefines. Against the naming of the other layers: QuantRNN ignores gate_acc_* keywords, which QuantLSTM takes.", "quantifier": "all class hierarchies, quantizers and keyword dictionaries", "why_tests_cant": "Universal over hierarchies and keywords; tests pass a few keywords to a few layers.", "anchors": ["src/brevitas/inject/__init__.py:_ExtendedInjectorType.__new__", "src/brevitas/nn/mixin/utils.py:filter_kwargs", "src/brevitas/nn/mixin/base.py:QuantProxyMixin.__init__", "src/brevitas/nn/mixin/act.py:QuantNonLinearActMixin.__init__", "src/brevitas/nn/quant_layer.py:QuantWeightBiasInputOutputLayer.__init__", "src/brevitas/nn/quant_rnn.py:_QuantRNNLayer.__init__"]}
{"id": "C94", "title": "Moving elements of a quantized tensor moves its integer codes", "statement": "Applying view, reshape, flatten, transpose, permute, pixel_shuffle, pixel_unshuffle or an embedding lookup to a valid IntQuantTensor gives a valid IntQuantTensor whose int() is the same rearrangement of the int() of the argument. For transpose and permute this holds when scale and zero point have one element or the rank of the tensor; for reshapes and pixel shuffles when they have one element; embedding raises otherwise. Against the claim for per-channel tensors: reshaping leaves the scales where they were, so int() silently returns other integers or another shape than the tensor; the same for pixel_shuffle and for transposing a tensor with a scale of lower rank.", "quantifier": "all shapes, values, metadata, dimensions and permutations", "why_tests_cant": "Universal over shapes and metadata; tests check a few reshapes of per-tensor tensors.", "anchors": ["src/brevitas/quant_tensor/int_quant_tensor.py:IntQuantTensor.view", "src/brevitas/quant_tensor/int_quant_tensor.py:IntQuantTensor.reshape", "src/brevitas/quant_tensor/int_quant_tensor.py:IntQuantTensor.flatten", "src/brevitas/quant_tensor/int_quant_tensor.py:IntQuantTensor.transpose", "src/brevitas/quant_tensor/int_quant_tensor.py:IntQuantTensor.permute", "src/brevitas/quant_tensor/int_quant_tensor.py:IntQuantTensor.int", "src/brevitas/quant_tensor/torch_handler.py:quant_invariant_handler", "src/brevitas/quant_tensor/int_torch_handler.py:embedding_handler"]}
{"id": "C95", "title": "Quantization-invariant operations stay on the integer grid", "statement": "relu, relu6, hardtanh, constant padding, max pooling, adaptive max pooling, nearest interpolation and dropout in evaluation mode keep scale, zero point and bit width; the codes of the result are: the maximum with the zero point; the code clipped to the codes of the bounds, if these are representable or out of reach; the codes moved, with the code of the padding value elsewhere, if it is representable and the padded dimensions share their scale; the maximum code of the window; the copied code; the same code. Interpolation in any other mode gives the plain interpolated values. QuantUpsample with non-negative weights of sum one gives a valid tensor within half a step of the interpolated value when the zero point is an integer. Against the claim in general: relu6 and hardtanh clip to values off the grid, relu does with a non-integer zero point (as left by adding a plain tensor), padding with an unrepresentable value or over channels, dropout in training and bicubic upsampling give tensors that are not valid but still labelled quantized.", "quantifier": "all shapes, values, metadata, window parameters and interpolation weights", "why_tests_cant": "Universal over tensors and parameters; tests check a few random tensors and is_valid only for some.", "anchors": ["src/brevitas/quant_tensor/torch_handler.py:relu_qt_handler", "src/brevitas/quant_tensor/torch_handler.py:relu6_qt_handler", "src/brevitas/quant_tensor/torch_handler.py:hardtanh_qt_handler", "src/brevitas/quant_tensor/torch_handler.py:pad_handler", "src/brevitas/quant_tensor/torch_handler.py:max_pool1d", "src/brevitas/quant_tensor/torch_handler.py:adaptive_max_pool1d_handler", "src/brevitas/quant_tensor/torch_handler.py:interpolate_handler", "src/brevitas/quant_tensor/torch_handler.py:dropout_handler", "src/brevitas/nn/quant_upsample.py:QuantUpsample.forward"]}
{"id": "C96", "title": "GPTQ and GPFQ treat the layers one after the other in the order of their calls", "statement": "In a gptq_mode or gpfq_mode block that runs the calibration set and then update() as often as num_layers says, every supported layer that the network calls is updated exactly once, from the inputs of its first call in the network in which all layers called before it already have their final weights; GPFQ's float inputs are those of the network as it was on entry. The members of a group_of_parallel_layers entry that are called one after the other are updated together, each from inputs that see the other members unchanged. A weight already saved by an earlier block stays the float reference, and without create_weight_orig the current weight is it. Other weights keep their values and only hooks of layers that were never called remain. Entering registers one hook per supported layer, with the size of its group, and num_layers counts groups and single layers, provided no joined group name is another layer's name. With return_forward_output every call returns the output of the network. The Hessian of GPTQ is 2/N times the sum of X X^T over all batches with N the total batch size. Against the claim otherwise: if another layer is called between the members of a group, no pass stops at the group and that layer is updated from inputs of the not yet updated group; a layer named like the joined name of a group is dropped silently; the hook of a layer not called in calibration stays after the block, so a later call raises StopFwdException; a group naming an unknown layer raises on entry and leaves the model's forward replaced.", "quantifier": "all networks (call sequences with repeated and missing layers), calibration sets, weights, per-layer update functions, groupings and numbers of passes", "why_tests_cant": "Universal over call orders, groups and calibration data; tests run the modes on fixed small models and check only that they run.", "anchors": ["src/brevitas/graph/gpxq.py:gpxq_mode.__enter__", "src/brevitas/graph/gpxq.py:gpxq_mode.update", "src/brevitas/graph/gpxq.py:gpxq_mode.__exit__", "src/brevitas/graph/gptq.py:gptq_mode.catch_stopfwd", "src/brevitas/graph/gptq.py:GPTQ.update_batch", "src/brevitas/graph/gpfq.py:gpfq_mode.catch_stopfwd", "src/brevitas/graph/gpfq.py:GPFQ.update_batch"]}
{"id": "C97", "title": "What GPTQ and GPFQ blocks do to the quantizers and flags of the model", "statement": "Without use_quant_activations the activation and bias quantizers are off inside the block; in GPFQ's float pass every quantizer is off, and between batches the weight quantizers are on and the others as asked for. After a GPTQ block, and after a GPFQ block with use_quant_activations, the return_quant_tensor flag of every layer is as before. After the block the affected quantizers are on, also those that were off before. Against the claim that GPFQ restores the model: with use_quant_activations=False every return_quant_tensor flag is False after a block that has seen a batch, because each batch overwrites the saved flags; with use_quant_activations=True all quantizers are left in evaluation mode in a model that is being trained.", "quantifier": "all module trees, kinds of proxies, initial flags, numbers of batches and effects of the passes on other attributes", "why_tests_cant": "Universal over module trees and flag states; tests do not look at the flags after the block.", "anchors": ["src/brevitas/graph/gpxq.py:gpxq_mode.__enter__", "src/brevitas/graph/gpxq.py:gpxq_mode.__exit__", "src/brevitas/graph/gpfq.py:gpfq_mode.catch_stopfwd", "src/brevitas/graph/calibrate.py:DisableEnableQuantization"]}
{"id": "C98", "title": "Floating-point quantized tensors keep their format through minifloat(), negation, abs, subtraction and concatenation", "statement": "For a FloatQuantTensor whose finite elements are scale times numbers of its exponent/mantissa/bias format and whose scale is at most 1, is_valid is true, minifloat() returns exactly those numbers, negation and abs return the exact values as a valid tensor with the same metadata, subtraction returns the exact differences, and the same holds for what a saturating quantizer returns. Addition returns the IEEE sums as a plain tensor. Negating an unsigned tensor raises; abs of an unsigned tensor is the tensor. At inference, torch.cat of tensors with the same metadata and a list of infinity codes is the concatenation with those metadata; a plain tensor among the arguments gives the plain concatenation; when cat succeeds, signs and exponent biases agree, one of the two widths agrees, at inference scales and zero points agree, and the sets of infinity codes or the sets of NaN codes agree. With quantization disabled and no pass-through, an activation returns a plain tensor. Against the claim otherwise: whenever (2^(m+1)-1)*scale >= 2^(m+1) there is a number of the format that minifloat() does not recover; with scale 3/2 a tensor is called invalid and neg, abs and subtraction raise; with scale 8 the element 9 is silently negated to -8, and a - a is 1; formats without infinity codes cannot be concatenated (TypeError); tensors that differ in one width, in the infinity codes or in saturation are joined under the label of the first; a pass-through activation with quantization disabled exchanges the exponent and mantissa widths.", "quantifier": "all formats (exponent and mantissa widths, bias, reserved codes), scales, zero points, element lists of any length and numbers of concatenated tensors", "why_tests_cant": "Universal over formats, scales and values; tests build one E4M3 or E5M2 tensor with scale 1.", "anchors": ["src/brevitas/quant_tensor/float_quant_tensor.py:FloatQuantTensor.minifloat", "src/brevitas/quant_tensor/float_quant_tensor.py:FloatQuantTensor.is_valid", "src/brevitas/quant_tensor/float_quant_tensor.py:FloatQuantTensor.cat", "src/brevitas/quant_tensor/float_quant_tensor.py:FloatQuantTensor.__neg__", "src/brevitas/quant_tensor/float_quant_tensor.py:FloatQuantTensor.__abs__", "src/brevitas/quant_tensor/float_quant_tensor.py:FloatQuantTensor.check_bit_width_same", "src/brevitas/proxy/float_runtime_quant.py:ActFloatQuantProxyFromInjector.create_quant_tensor"]}
{"id": "C99", "title": "An exported float8 QuantizeLinear/DequantizeLinear pair computes what the float quantizer computes", "statement": "If the ONNX export of a floating-point activation or weight quantizer succeeds, and the quantizer saturates, is signed and has the exponent bias and largest value of the float8 type that the export chooses, then for every input the quantizer's result is scale times the nearest number of that type, ties to the even code, saturating, which is what QuantizeLinear followed by DequantizeLinear computes, and no other result is possible. The OCP and FNUZ quantizers with their default exponent bias meet the condition whenever they export, and E4M3FN, E5M2, E4M3FNUZ and E5M2FNUZ do export. Exactly these are exported: rounding mode ROUND and the widths and reserved codes of OCP E4M3 or E5M2, or the widths of either with no reserved codes and exponent bias 8 or 16. A rounding mode other than ROUND, widths other than 4/3 and 5/2, and the generic formats without reserved codes are refused. Against the claim in general: the exponent bias is not looked at, so an OCP quantizer with another bias exports and computes other values (256 gives 224 against 256 exported); a quantizer that does not saturate gives NaN where the export gives 448; an unsigned quantizer gives 0 where the export gives -1.", "quantifier": "all inputs, positive scales, epsilons below a quarter of the smallest subnormal, bit widths, exponent and mantissa widths", "why_tests_cant": "Universal over inputs and configurations, with the ties; tests export and run a few fixed models on random inputs.", "anchors": ["src/brevitas/export/onnx/standard/qcdq/handler.py:StdFloatDQCastONNXMixin.validate", "src/brevitas/export/common/handler/qcdq.py:FloatQMixin.signed_dtype", "src/brevitas/export/common/handler/qcdq.py:FloatQCDQCastActQuantProxyHandlerMixin.prepare_for_export", "src/brevitas/export/common/handler/qcdq.py:FloatQCDQCastWeightQuantProxyHandlerMixin.prepare_for_export", "src/brevitas/proxy/float_runtime_quant.py:ActFloatQuantProxyFromInjectorBase.is_ocp", "src/brevitas/core/quant/float.py:FloatQuant.forward"]}
{"id": "C100", "title": "In floating point, statistics-scaled weight quantization stays within half a step plus rounding of every weight", "statement": "In IEEE arithmetic with precision p >= 8 and unit roundoff u = 2^-p, a signed narrow-range quantizer of b <= p-2 bits with AbsMax scaling returns, for every finite weight, a finite number that is an integer of magnitude at most 2^(b-1)-1 times the scale, rounded once, and is within (1/2 + 4u*2^(b-1)) scales of the weight, provided the scale is a normal number and threshold times scale is at most 2^(emax-1). An unsigned quantizer of b <= p-3 bits with AbsMinMax scaling and the quantized minimum as zero point has an integer zero point within range and is within (1/2 + 6u*2^b) scales of every weight, provided some weight is non-negative. The scale is the rounded quotient of the largest magnitude (the rounded range) by the threshold, or scaling_min_val if that is larger. In float32 with the default scaling_min_val the conditions on the scale hold for all weights up to 2^126 (2^125), so 8-bit weights are within (1/2 + 2^-15) scales. Against the claim in narrower formats: in float16 the weight 65504 quantized to 8 bits becomes infinite; a weight of 190*2^-24 gets a subnormal scale and is off by 63 scales; the default scaling_min_val 1e-10 is zero in float16, so an all-zero weight becomes NaN; in bfloat16 at 8 bits the weight 127.5 next to 174 becomes 129, more than one scale away.", "quantifier": "all weight lists, bit widths up to the bound, floating-point formats with at least 8 bits of precision, scaling_min_val values", "why_tests_cant": "Universal over all weights of every format; tests compare a few random float32 tensors with a tolerance.", "anchors": ["src/brevitas/core/scaling/runtime.py:StatsFromParameterScaling.forward", "src/brevitas/core/scaling/runtime.py:_StatsScaling.forward", "src/brevitas/core/stats/stats_op.py:AbsMax.forward", "src/brevitas/core/stats/stats_op.py:AbsMinMax.forward", "src/brevitas/core/stats/stats_op.py:NegativeMinOrZero.forward", "src/brevitas/core/zero_point.py:StatsFromParameterZeroPoint.forward", "src/brevitas/core/quant/int.py:RescalingIntQuant.forward", "src/brevitas/core/restrict_val.py:_RestrictClampValue.forward"]}
{"id": "C101", "title": "The nodes of a QONNX export compute what the quantizers compute", "statement": "For every integer activation quantizer of at least two bits (any sign, range, zero point, rounding mode named once by its class) the exported Quant node, read as clip, round, rescale, returns the quantizer's output on every input, with the same scale, zero point and bit width; binary activations become BipolarQuant with the same output. A ternary activation is exported as a rounding 2-bit node, which is the same function exactly when the threshold is 1/2. Every tracked layer of a weight quantizer (integer, decoupled, binary, ternary; any rounding that yields integers, learned rounding included) gets a node that returns its quantized weight unchanged. A bias with its own scale, or whose cached accumulator scale is the one used at run time, gets an equivalent node, and truncation too. Group-wise quantizers, one-bit quantizers with a zero point, disabled activation quantizers and uncached biases cannot be exported. Against the claim: a one-bit integer activation or weight is exported as the sign, with levels -s and s instead of 0 and s; a class that sets float_to_int_impl and inherits float_to_int_impl_type is exported with the inherited rounding; the bias of a layer called with two input scales is exported with the last scale for both calls; the rounding attribute keeps the user's case (TruncTo8bit exports 'floor').", "quantifier": "all quantizer configurations, scales, zero points, bit widths, rounding modes and input tensors", "why_tests_cant": "Tests export a few layers and compare outputs on one random input; the equivalence is over all configurations and inputs, including ties and saturation.", "anchors": ["src/brevitas/export/onnx/qonnx/handler.py:BrevitasQuantProxyHandler.prepare_for_export", "src/brevitas/export/onnx/qonnx/handler.py:BrevitasQuantProxyHandler.symbolic_execution", "src/brevitas/export/onnx/qonnx/handler.py:BrevitasWeightQuantProxyHandler.prepare_for_export", "src/brevitas/export/onnx/qonnx/handler.py:BrevitasBiasQuantProxyHandler.symbolic_execution", "src/brevitas/export/onnx/qonnx/handler.py:BrevitasTruncQuantProxyHandler.symbolic_execution", "src/brevitas/export/onnx/qonnx/function.py:BrevitasQuantFn.forward", "src/brevitas/export/onnx/qonnx/function.py:BrevitasBinaryQuantFn.forward", "src/brevitas/export/onnx/qonnx/function.py:BrevitasTruncFn.forward", "src/brevitas/proxy/quant_proxy.py:_rounding_mode"]}
{"id": "C102", "title": "Constant and learned scales put the declared limits at the ends of the integer range", "statement": "A ConstScaling with value v and threshold t returns max(v,min)/max(t,min) with FloatRestrictValue and LogFloatRestrictValue, so code t stands for v when the minimum is below both; with PowerOfTwoRestrictValue it is exactly a power of two, the quotient of the powers nearest to v and t, within a factor two of v/t. A new ParameterScaling has the declared shape and in every element the scale of the constant; only a tensor of another shape is refused. Whatever value training gives the parameter, a positive minimum keeps the scale positive, and in the log domain it is positive anyway. For activation quantizers with min_val and max_val: unsigned, the top code is exactly max_val; signed, the bottom code is exactly minus the larger magnitude m, the top is m (narrow) or one step less; values between the ends are off by at most half a step and others saturate; with power-of-two scales the ends are at the power of two nearest to m. Against the claim: ConstScaling(1.0, scaling_min_val=3.0) returns 1, documented 3, because the minimum clamps the threshold too; a minimum that is not a power of two breaks the power-of-two restriction; with a minimum a negative learned value becomes the minimum instead of its magnitude; max_val itself is a whole step off for signed full range; power-of-two scales may clip more than a fifth of the declared interval.", "quantifier": "all restrictions, minima, values, thresholds, shapes, bit widths, limits and activations (exact reals)", "why_tests_cant": "Tests check the documented doctest values and a few random tensors; the claims hold for every value, learned state and input, and the doctest for scaling_min_val is not run.", "anchors": ["src/brevitas/core/scaling/standalone.py:ConstScaling.forward", "src/brevitas/core/scaling/standalone.py:ParameterScaling.__init__", "src/brevitas/core/scaling/standalone.py:ParameterScaling.forward", "src/brevitas/core/restrict_val.py:_RestrictClampValue", "src/brevitas/quant/solver/act.py:MinMaxScalingInit", "src/brevitas/quant/solver/common.py:SolveIntScalingImplFromEnum"]}
{"id": "C103", "title": "Learned zero points: range, first use, and checkpoints", "statement": "A learned zero point with value v and scale s that fits the range (|v|/s at most the number of steps) is, quantized, an integer code; the lowest representable value is within s/2 of -|v|, zero is represented exactly, and every value over the whole width of the range from there is off by at most s/2, values beyond either end saturating there. Unquantized, the lowest value is exactly -|v|. ParameterFromStatsFromParameterZeroPoint returns for any non-positive statistic, on the first call and on any earlier local-loss call, the zero point of StatsFromParameterZeroPoint; local-loss calls change nothing, the first other call stores its statistic, and after that no statistic is looked at again. After the first call the saved entry always loads and the receiver then behaves as the sender under all further calls and optimizer steps. Against the claim: without quantization zero may not be representable; the sign of zero_point_init is ignored; for a positive statistic the local-loss search evaluates another zero point than the one used later; the state dict of a module that was never called does not load with strict=True, or, with the full state dict flag, loads the placeholder 0 as if it were initialised; an optimizer step before the first call shifts the initial zero point.", "quantifier": "all values, scales, bit widths, signs and ranges; all sequences of calls, local-loss calls, optimizer steps, saves and loads", "why_tests_cant": "Tests call the module once or twice with one statistic; order of calls, checkpoint timing and the covered range for all values are not enumerated.", "anchors": ["src/brevitas/core/zero_point.py:ParameterZeroPoint.forward", "src/brevitas/core/zero_point.py:_ScaleShiftZeroPoint.forward", "src/brevitas/core/zero_point.py:ParameterFromStatsFromParameterZeroPoint.forward", "src/brevitas/core/zero_point.py:ParameterFromStatsFromParameterZeroPoint.state_dict", "src/brevitas/core/zero_point.py:ParameterFromStatsFromParameterZeroPoint._load_from_state_dict", "src/brevitas/core/zero_point.py:StatsFromParameterZeroPoint.forward"]}
{"id": "C104", "title": "Quantizing a part of a weight gives that part of the quantized weight", "statement": "For every weight, part (any list of slices), elementwise or learned rounding, in training or evaluation, quant_weight(subtensor_slice_list) equals that part of quant_weight(), provided the scale and zero point have size 1 in every sliced dimension; the layer and its quantizer are left as they were, also after any sequence of sliced and whole calls that do not raise and of weight updates. Every entry of the whole quantized weight is (clamp(round(w/s + z)) - z)*s with the scale and zero point aligned at the last dimension, floor plus the learned term replacing round for learned rounding. With quantization disabled it is the part of weight_orig (else of weight). get_quant_weights of GPTQ/GPFQ returns in all its branches (linear, convolution sliced, grouped or group-wise whole, transposed convolution with one group) the column perm_g[i1+i] of the flattened quantized weight of every group. Against the claim: slicing one output channel of a per-channel weight returns without error a tensor of the whole weight's shape, and slicing several raises; a sliced call that raises leaves its slices in the learned rounding, so that the next whole quantization silently rounds every column like the sliced one; after the quantizer is rebuilt (learned rounding inserted, or a state dict loaded) the layer's cache names dead modules and parts are rounded with the whole parameter; grouped transposed convolutions whose output channels per group are not a multiple of the groups cannot be processed.", "quantifier": "all weights, shapes, ranks, slices, scale shapes, rounding parameters, permutations, histories of calls", "why_tests_cant": "Tests check GPTQ/GPFQ end to end on a few layers; the equality for all slices, shapes and histories, and the state left behind by errors, is not observable from them.", "anchors": ["src/brevitas/nn/mixin/parameter.py:QuantWeightMixin.quant_weight", "src/brevitas/core/utils.py:SliceTensor", "src/brevitas/core/function_wrapper/learned_round.py:LearnedRoundSte.forward", "src/brevitas/graph/gpxq.py:GPxQ.get_quant_weights", "src/brevitas/proxy/quant_proxy.py:QuantProxyFromInjector.init_tensor_quant"]}
{"id": "C105", "title": "Linear and convolution layers return the scale, zero point and integer codes of their output, whatever its rank", "statement": "For a quantized input with one scale and zero point 0 and a quantized weight with one scale per output channel (or one in all), a layer with return_quant_tensor returns a quantized tensor whose value at every index is (code - zero point) * scale, where scale and zero point are the broadcast entries at that index. The scale is weight scale times input scale of the output channel. Linear on inputs of any rank: without bias the code is the integer accumulator and the zero point 0; with a bias quantized at the output scale the code is the accumulator plus the nearest bias code, zero point 0, and the bit width is one above the larger of bias and accumulator. Linear on two-dimensional inputs and batched convolutions (any number of spatial dimensions, groups, strides, paddings, dilations) with a float bias: the code is the accumulator and the zero point is -bias/scale. Batched convolutions with a quantized bias: the bias is added to the codes exactly when the output scales of all channels are close to each other, otherwise its codes go to the zero point. The declared bit width is that of the accumulator, one more than the larger of it and the bias for a quantized bias. Against the claim: a convolution with per-channel scales and a quantized bias therefore has a non-zero zero point, and every following layer with return_quant_tensor raises (without it, it returns a plain tensor); a linear layer on three-dimensional inputs with a float bias gets a zero point along the sequence instead of the features, or one that does not broadcast; on one-dimensional inputs with a float bias it raises; an unbatched convolution gets per-channel scales along the positions.", "quantifier": "all values, shapes, ranks, batch sizes, groups, strides, paddings, dilations, scales, biases and bias bit widths", "why_tests_cant": "Tests run a few layers with one shape and compare float outputs, which are right even where scale and zero point are wrong; the integer codes for all ranks, and the pairwise comparison of channel scales, are not covered.", "anchors": ["src/brevitas/quant_tensor/int_torch_handler.py:quant_layer", "src/brevitas/quant_tensor/int_torch_handler.py:quant_output_scale_impl", "src/brevitas/utils/torch_utils.py:compute_channel_view_shape", "src/brevitas/proxy/parameter_quant.py:BiasQuantProxyFromInjector.forward", "src/brevitas/nn/quant_layer.py:QuantWeightBiasInputOutputLayer.forward_impl"]}
{"id": "C106", "title": "Exporting a model writes its current quantizers and leaves the model as it was, over any history of exports, training and inference", "statement": "Take a model that is not in export mode. An ONNX or TorchScript export that returns writes, for the target asked for, one quantizer with its current scale, zero point and bit width for every enabled quantizer the trace reaches, in call order, and nothing else. It leaves no handler, export mode or overridden option behind; parameters, buffers, enabled quantizers, caching options and requires_grad are as before, and every module has the training flag of the root. It does return when both passes return, the target handles every enabled quantizer and accepts its metadata, and no activation function with disabled quantization is reached; if one is reached, it always raises. In any history of parameter updates, train/eval, enabling and disabling quantizers, forward passes, metadata reads and exports to any targets in which nothing raises, every forward pass and every export behaves as if there had been no export before. Without exports and caching, metadata read from a quantizer is that of its current state. In any history at all, exports never change parameters or which quantizers are enabled, and an export that returns leaves no trace. Against the claim: after an export that raised, a retry writes the old metadata, an export to another target writes the nodes of the first, forward passes (also in training) keep using the old metadata, and a TorchScript trace leaves requires_grad False for good; leaving export mode by hand does not help for activations; a submodule kept in evaluation mode is in training mode after an export; after an export the scale of an activation read from its proxy never changes again.", "quantifier": "all models (any modules, classes, quantizer states and metadata functions), all managers, all sequences of steps, all points where torch or the model raises", "why_tests_cant": "Tests export a fresh model once and inspect the file. What a second export, a failed export or training afterwards does depends on state left in every proxy, over sequences no test enumerates.", "anchors": ["src/brevitas/export/manager.py:BaseManager._set_export_handler", "src/brevitas/export/manager.py:BaseManager._cache_inp_out", "src/brevitas/export/manager.py:BaseManager.jit_inference_trace", "src/brevitas/export/onnx/manager.py:ONNXBaseManager.export_onnx", "src/brevitas/common.py:ExportMixin", "src/brevitas/proxy/runtime_quant.py:ActQuantProxyFromInjectorBase"]}
{"id": "C107", "title": "MX block quantizers: weights get the smallest power-of-two scale that covers their group; activations never do", "statement": "Integer and floating point MX quantizers, any bit width or saturating signed format, any group size, tensors of any rank. Weights: the scale of each group is the smallest power of two with which no member exceeds the threshold (2^(bits-1), or the largest value of the format), clamped below at 1e-10; each weight becomes the nearest multiple of the scale in the signed range, at most one step away and at most half a step unless it is in the top half step of the range (integers), or the nearest value of the format times the scale without saturating (floats). Activations: the scale is 2 to the ceiling of (largest magnitude / threshold), because RuntimeDynamicGroupStatsScaling applies the power-of-two restriction to the ratio and not to its logarithm. It covers the group, but is never the smallest power of two that does. As a consequence MXInt8Act maps every tensor with entries in [-1, 1] to zero, and every group with a member above 1408 to zero; MX float activations flush every entry below the smallest value of the unscaled format (2^-9 for e4m3) to zero whatever its group. Against the claim: an integer weight equal to the power of two that sets the scale loses a whole step (1.0 becomes 127/128); a group of zeros has the scale 1e-10, not a power of two; the same numbers as weight and as activation get scales 256 times apart.", "quantifier": "all tensors (any rank, sizes, group dimension), group sizes, bit widths, saturating formats with any rounding guard eps in range", "why_tests_cant": "Tests run MX layers forward and check shapes and types. That the scale is the right power of two for every group, and what happens to all tensors of a given range, is a statement about all values.", "anchors": ["src/brevitas/quant/experimental/mx_quant_ocp.py:MXWeightMixin", "src/brevitas/quant/experimental/mx_quant_ocp.py:MXActMixin", "src/brevitas/core/scaling/runtime.py:RuntimeDynamicGroupStatsScaling.forward", "src/brevitas/core/restrict_val.py:PowerOfTwoRestrictValue.forward"]}
{"id": "C108", "title": "The scale a layer uses after any history of building, sharing, tying, folding, training, saving and loading", "statement": "For any number of layers, any sharing of weight quantizers and tying of weights, and any sequence of: building a layer with its own quantizer or another layer's, replacing or tying weights, folding a batch norm, in-place weight changes, calls, optimizer steps over any parameters, loads of any checkpoint under any flags, and rebuilding with the state preserved. (1) A statistics scale is always the statistic of the current weights of all layers sharing the quantizer. (2) Replacing or tying a weight, folding, or giving the quantizer to another layer resets the scale of every layer sharing it to that of a new quantizer over the current weights; what was learned or loaded is lost. Rebuilding with preserve_state_dict keeps all scales. (3) Loading with rebuilding (the default) sets every weight found, and sets a learned scale to the value of the last layer sharing the quantizer, or, if that is absent, to that of a new quantizer over the loaded weights; without rebuilding, to the value of the last sharing layer that has one, else it stays. load_state_dict returns exactly when not strict or no weight or learned scale is missing and no key is unknown. (4) Loading a model's checkpoint into any model of the same network reproduces all weights, scales and the checkpoint; strictly exactly when every learned scale was initialised or missing keys are ignored. (5) An optimizer built before a rebuild or a default load never changes the learned scales concerned again, while the weights remain its parameters; over calls, training, in-place changes and loads without rebuilding all parameters stay the same objects. Against expectation: a checkpoint taken before the first call is refused by a strict load into the same model; a checkpoint of separate quantizers loads strictly into shared ones and changes the first layer's scale; a strict load that raises has already replaced weights and scales; without rebuilding and ignoring missing keys, a checkpoint taken before the first call keeps the scale of the old weights.", "quantifier": "all histories of the ten operations from an empty model, all numbers of layers, sharing and tying patterns, weights, statistics and initialisers, checkpoints and flags", "why_tests_cant": "Tests load a handful of checkpoints into single layers. Which scale is in use depends on the order of all earlier operations and on which layers share Parameters; no finite set of histories settles it.", "anchors": ["src/brevitas/proxy/quant_proxy.py:QuantProxyFromInjector.add_tracked_module", "src/brevitas/proxy/quant_proxy.py:QuantProxyFromInjector._load_from_state_dict", "src/brevitas/proxy/parameter_quant.py:ParameterQuantProxyFromInjector.init_tensor_quant", "src/brevitas/core/scaling/standalone.py:ParameterFromStatsFromParameterScaling", "src/brevitas/core/scaling/standalone.py:ParameterScaling", "src/brevitas/nn/mixin/parameter.py:QuantWeightMixin.register_parameter", "src/brevitas/nn/utils.py:merge_bn"]}
{"id": "C109", "title": "What the layers standing in for a batch norm compute and which checkpoints they load", "statement": "After loading the checkpoint of a batch norm over C channels (variances plus eps positive), BatchNorm2dToQuantScaleBias maps every N x C x H x W tensor to a tensor of that shape which differs from the batch norm in evaluation mode by at most |x| times the error of the weight quantizer plus the error of the bias quantizer; without quantizers it is the batch norm exactly. The checkpoint is always applied; load_state_dict then returns exactly when not strict or missing keys are ignored, because the consumed weight and bias count as missing. The layer's own checkpoints load exactly and strictly. Against expectation: BatchNorm1dToQuantScaleBias never returns an N x C x L tensor for an N x C x L input: it raises unless N = C, N = 1 or C = 1 and then returns a tensor with one dimension more, scaled along the batch when N = C; an N x C input gives 1 x C x N x C. QuantScaleBias without a bias always raises, and the plain ScaleBias with a bias over two or more features does too. A batch norm checkpoint over another number of channels is accepted without complaint. A checkpoint without num_batches_tracked raises after the layer was changed, and one of a batch norm without affine parameters raises.", "quantifier": "all channel counts, input shapes and values, batch norm parameters and statistics with positive variance plus eps, length-preserving quantizers with any error bound, and load flags", "why_tests_cant": "Tests load one checkpoint into a 2d layer and compare a few values. That the result is the batch norm for every shape, and that the 1d variant fails for every ordinary shape, needs all shapes.", "anchors": ["src/brevitas/nn/quant_bn.py:_BatchNormToQuantScaleBias._load_from_state_dict", "src/brevitas/nn/quant_bn.py:BatchNorm1dToQuantScaleBias", "src/brevitas/nn/quant_bn.py:BatchNorm2dToQuantScaleBias", "src/brevitas/nn/quant_scale_bias.py:QuantScaleBias", "src/brevitas/nn/quant_scale_bias.py:ScaleBias", "src/brevitas/nn/utils.py:mul_add_from_bn"]}
{"id": "C110", "title": "What the Hadamard classifier computes, when it runs, and which range its outputs have", "statement": "For every number of inputs and classes. The rows used are ones and minus ones, do not depend on how large the Hadamard matrix is taken, and for an input width that is a power of two and at most as many classes they are pairwise orthogonal. A call returns exactly when the input is an IntQuantTensor with zero point zero and rows of in_channels values and return_quant_tensor is set. It then returns one value per sample and class, none larger than |scale| * sqrt(in_channels); with as many classes as inputs (a power of two) the squared length of a sample is preserved up to scale^2 * in_channels / norm^2. With a positive scale the order of the classes of a sample depends on that sample only: the class whose row correlates least comes first. Every output value is the output scale times an integer, minus the product of the row and the input codes. For signed narrow-range inputs of two or more bits this integer fits the declared signed bit width; for any input it fits in magnitude with one more bit. A checkpoint reproduces all outputs. Against expectation: for unsigned and full-range signed inputs the integer leaves the declared range; the outputs of a sample change with the other samples of the batch; rows cut to a width that is not a power of two are not orthogonal; plain tensors and layers without return_quant_tensor always raise.", "quantifier": "all input widths, class counts, batches, scales, input codes and bit widths", "why_tests_cant": "Tests check the keys of the state dict only. Orthogonality, the order of classes and the code range hold or fail over all sizes and inputs.", "anchors": ["src/brevitas/nn/hadamard_classifier.py:HadamardClassifier.__init__", "src/brevitas/nn/hadamard_classifier.py:HadamardClassifier.forward", "src/brevitas/nn/hadamard_classifier.py:HadamardClassifier.max_output_bit_width", "src/brevitas/nn/hadamard_classifier.py:HadamardClassifier.state_dict"]}
{"id": "C111", "title": "Element-wise addition, concatenation and embedding layers: accuracy, codes and when they can be used", "statement": "QuantEltwiseAdd with rounding input and output quantizers of fixed scale, on operands of equal shape that are plain or quantized: values inside the input range whose sum keeps one input step from the ends of the output range are added with an error of at most one input step plus half an output step, and a quantized result consists of codes in the output quantizer's range under its scale, zero point and bit width. With an input quantizer only, the error is at most one step and a quantized result stands for the sums of the codes of both operands, within its declared bit width. With an input quantizer the operands can be swapped. Without quantizers plain tensors are added exactly; quantized operands are refused exactly when the left one is in evaluation mode and the scales differ by more than the tolerance. QuantEmbedding returns exactly when all indices are in range and the weight is an integer quantized tensor with one scale and zero point, or is not integer quantized and no quantized result is asked for; without max_norm the result is the rows of integer codes looked up, with the metadata of the weight. Against expectation: QuantCat raises on every call; QuantEltwiseAdd and QuantCat cannot be built with tie_input_output_quant; without an input quantizer swapping the operands can raise; a per-row scaled QuantEmbedding always raises; with max_norm the quantized result is off its own grid.", "quantifier": "all operand values and lengths, quantizer scales, zero points, bit widths, signedness and narrow range, weights, index lists and flags", "why_tests_cant": "No test calls these layers with more than a few values, and QuantCat and tied quantizers are not tested at all; the error bound and code range are claims over all inputs.", "anchors": ["src/brevitas/nn/quant_eltwise.py:QuantEltwiseAdd.forward", "src/brevitas/nn/quant_eltwise.py:QuantCat.forward", "src/brevitas/nn/quant_layer.py:QuantInputOutputLayer.__init__", "src/brevitas/nn/quant_embedding.py:QuantEmbedding.forward", "src/brevitas/quant_tensor/int_torch_handler.py:embedding_handler", "src/brevitas/quant_tensor/int_quant_tensor.py:IntQuantTensor.__add__"]}
{"id": "C112", "title": "Group-wise quantized tensors: groups, codes, arithmetic and what raises", "statement": "For every group-wise quantized tensor with one scale and zero point per group (or one for all), grouped along a non-negative dimension or the last one: the public value has the group dimension flattened, position q*g + r being element r of group q, and the public scale and zero point at a position are those of its group. int() of an integer tensor (2 to 31 bits) returns for each position the integer in range closest to value / scale + zero point, in int8, uint8 or int32, exactly when each element is within a fifth of a step of such an integer, and raises otherwise; the returned codes reproduce the values within a fifth of a step. Sums, products and quotients with a number, a tensor, or any quantized tensor of the same shape are plain tensors holding the results on dequantized values; group-wise sums commute; subtracting a plain tensor works. Torch functions without a quantization-keeping handler return what they return on the dequantized value. Against expectation: no group-wise tensor (integer or float) can be negated or converted with minifloat(), so subtracting one always raises, as does abs() of a signed one; relu, padding, dropout, max pooling, nearest interpolation and pixel shuffling raise on every group-wise tensor; no quantized layer accepts one as its input; caching only its metadata raises; a one-bit tensor with a single code is invalid.", "quantifier": "all shapes, group sizes, values, scales, zero points, bit widths and functions", "why_tests_cant": "The tests of group-wise tensors only look at shapes for a few sizes and never negate, subtract, pool or pass one on to another layer.", "anchors": ["src/brevitas/quant_tensor/groupwise_int_quant_tensor.py:GroupwiseIntQuantTensor", "src/brevitas/quant_tensor/groupwise_float_quant_tensor.py:GroupwiseFloatQuantTensor", "src/brevitas/quant_tensor/base_quant_tensor.py:QuantTensor.set", "src/brevitas/quant_tensor/torch_handler.py:quant_invariant_handler", "src/brevitas/nn/mixin/base.py:QuantLayerMixin.unpack_input", "src/brevitas/utils/quant_utils.py:_CachedIOGroupwiseInt"]}
{"id": "C113", "title": "Layers for the FlexML target: average pooling and leaky ReLU", "statement": "For every kernel size up to 10^10 elements the FlexML average pool quantizes the reciprocal of the kernel size to 127/128 of it, so without ceil_mode each output is 127/128 of the mean over the zero-padded window. From a quantized image without zero point it returns 127 times the sum of the codes as codes of the declared scale, within the declared bit width for unsigned codes and for signed codes above the lowest. Zero point and signedness are passed on. It raises exactly for a plain input with return_quant_tensor=True. The FlexML leaky ReLU returns codes of its output quantizer, grows with its input, passes a nonnegative input through the input and output quantizers only, and is elsewhere within an explicit bound of the exact function. Over several batches the quantizers keep the average of the largest magnitudes. Against expectation: no constant image is reproduced by the pool; a window of lowest signed codes leaves the declared bit width; with ceil_mode a cut window leaves the grid; the input quantizer of the leaky ReLU also collects statistics on the product with the slope, so that after calibration it can clip to little more than half of the largest input seen; and layers built without explicit quantizers share them, so that training one rescales the other.", "quantifier": "all kernels, strides, paddings, images, codes, bit widths, slopes, scales and calibration inputs", "why_tests_cant": "Tests convert a few models and compare shapes or loose accuracy; they never look at the constant, the width, or two leaky layers in one network.", "anchors": ["src/brevitas/nn/target/flexml.py:FlexMLQuantAvgPool2d", "src/brevitas/nn/target/flexml.py:FlexMLQuantLeakyReLU", "src/brevitas/core/scaling/standalone.py:ParameterFromRuntimeStatsScaling", "src/brevitas/graph/target/flexml.py:FLEXML_QUANT_ACT_MAP"]}
{"id": "C114", "title": "Checkpoints of older versions and of running statistics load with the same meaning", "statement": "For every checkpoint: a quantizer with a learned scale takes the stored parameter if there is one and otherwise the absolute running statistic (in the logarithmic domain where the restriction asks for it); every entry of the running statistics disappears and no other entry changes. Names of the first versions (act_quant_proxy, learned_value) are understood. With a parameter initialised from statistics the scale after loading is the scale that the statistics gave, for every restriction and minimum; with a plain parameter also, for float and log-float scales without minimum and for power-of-two scales over a power-of-two threshold. A stored constant bit width not below the minimum becomes a learned bit width of that value, a stored offset is used, override keeps the initial one, and having both raises; the constant's entry is consumed and no other entry changes. The entry zero_hw_sentinel of a quantizer is accepted, and that only, and for a truncation quantizer inside of a model also under its former name. Against expectation: with learned_value and value present the older silently wins; a plain power-of-two parameter over the threshold 3 is halved; with a minimum a plain parameter ends below it; an affine rescaling is lost; a bit width b below the minimum m becomes 2m-b; with a power-of-two restriction a width of 8 becomes 256; the former sentinel name is not recognised for a layer loaded on its own; and an unexpected top-level zero_hw_sentinel makes every truncation quantizer raise ValueError.", "quantifier": "all checkpoints, prefixes, statistics, thresholds, restrictions, minimum values and bit widths", "why_tests_cant": "Tests load a handful of checkpoints written by the same version; the behaviour depends on which entries are present and on real-valued identities between statistics and parameters.", "anchors": ["src/brevitas/proxy/utils.py:ConvertRuntimeStatsToParameter", "src/brevitas/core/scaling/standalone.py:_load_from_state_dict", "src/brevitas/core/bit_width/parameter.py:BitWidthParameter._load_from_state_dict", "src/brevitas/proxy/quant_proxy.py:_load_from_state_dict", "src/brevitas/proxy/runtime_quant.py:TruncQuantProxyFromInjector._load_from_state_dict"]}
{"id": "C115", "title": "Euclidean projection initialisation of accumulator-aware layers", "statement": "For every non-empty vector and positive radius, euclidean_projection_onto_l1_ball returns the nearest point of the l1 ball: for every point y of the ball, dist(v,p)^2 + dist(p,y)^2 <= dist(v,y)^2, so it is also the only nearest point. A vector inside of the ball is returned; otherwise the norm of the result is the radius and every magnitude is shrunk by one threshold. Projecting twice changes nothing, and the function raises exactly for a radius that is not positive or an empty vector. l1_proj_matrix_per_channel does this to every channel, and returns exactly if there is one positive radius, or one per channel. After apply_ep_init, the quantizer of a 2d convolution or linear layer with its initial stored norm divides the projected weights by the plain scale. Against expectation: other accumulator-aware layers have their stored norm capped but not their weights projected, so that all weights are shrunk; and for zero-centred quantizers the weights are projected before centring, which can leave them outside of the ball and rescaled.", "quantifier": "all vectors, radii, channel matrices, scales, bounds and stored norms", "why_tests_cant": "Optimality against all points of the ball is a statement about infinitely many competitors; tests can only compare with a few.", "anchors": ["src/brevitas_examples/imagenet_classification/a2q/ep_init.py:euclidean_projection_onto_l1_ball", "src/brevitas_examples/imagenet_classification/a2q/ep_init.py:l1_proj_matrix_per_channel", "src/brevitas_examples/imagenet_classification/a2q/ep_init.py:apply_ep_init"]}
{"id": "C116", "title": "Packing integer weights into bytes", "statement": "For every row of unsigned two- or four-bit codes that fills whole bytes, pack_int_weights returns bytes from which a reader that splits every byte from the lowest bits recovers the row. For three, five and six bits, signed or not, if the last byte is full or lacks at most half, the bytes are the codes in two's complement, one after the other from the most significant bit, followed by zeros. Whatever is returned consists of bytes. Eight-bit codes are kept; one, seven and more than eight bits raise. Against expectation: with signed four-bit codes, whatever follows a negative code in the same byte is read back as -1; two- and four-bit codes after the last full byte are dropped without notice; with one to three bits in the last byte a single three-bit code is dropped and every other row raises; and from Python 3.9 on three, five and six bits always raise, since fractions.gcd is gone.", "quantifier": "all rows, codes, lengths and bit widths", "why_tests_cant": "Whether every code survives depends on its neighbours and on the length of the row; tests pack one matrix with convenient dimensions, if any.", "anchors": ["src/brevitas_examples/llm/llm_quant/export.py:LinearWeightBlockQuantHandler.pack_int_weights"]}
