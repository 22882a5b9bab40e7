# Formal model of Brevitas in Rocq (Coq 8.16.1)

`/verif/rocq/theories` holds a shallow Gallina model of the quantization library
in `/repo` (Xilinx/brevitas) and machine-checked proofs of the properties listed in
`properties.jsonl`. `MANIFEST.json` maps each property to the theorems proving it.
`seeded/LOG.jsonl` records experiments in which the model was deliberately broken to see
whether the theorems notice.

## 1. Layout

For each topic `X` there are up to three files.

* `X.v` : the model. Definitions only. Each definition cites the file and lines it
  mirrors and lists its simplifications.
* `XProofs.v` : lemmas.
* `XProps.v` : specification definitions, the property theorems (named `Cnn_*` after the
  property), non-vacuity examples, `Print Assumptions`.

Theorems whose name ends in `_refuted` show that a plausible stronger claim is false of the
model; each is a finding (section 5).

## 2. Modelling decisions

* **Numbers.** Tensor elements, scales, thresholds and losses are exact rationals (`Q`,
  compared with `==`), or standard-library reals where square roots, logarithms or
  non-integer powers occur. Integer codes are `Z`. Floating-point rounding is not part of
  these models. It is treated separately for the integer quantizer in `FloatQuant`
  (Flocq's IEEE-754 binary floats: float32, float16, bfloat16).
* **Tensors.** Element-wise code is modelled on one element and lifted with `map`. Where the
  shape matters (views, groups, layers, pooling) tensors are lists, or shape lists with
  index functions.
* **Bit widths.** Positive integers (`Z`), as produced by the library's integer
  bit-width modules; `2 ** b` is `Z.pow`/`Qpower`.
* **Transcendental functions.** `floor(log2 x)`, `ceil(log2 x)`, `round(log2 x)` of positive
  rationals are computed exactly by comparison with powers of two. Elsewhere the reals are used.
* **State.** Modules with buffers are records plus `step` functions; histories are
  lists of operations folded with the step function.
* **Exceptions.** Python exceptions are `None` or an error constructor.
* **Graphs.** A traced `torch.fx` graph is the list of its nodes in execution order, with a
  registry of module instances; the tracer itself is not modelled.
* **External libraries.** PyTorch kernels and ONNX operators are given their documented
  mathematical meaning.

## 3. What is modelled

| File | Models |
|------|--------|
| `QUtil.v` | Shared arithmetic helpers over exact rationals (no model code here). |
| `Ops.v` | Numeric primitives in src/brevitas/function/ops.py and of the float-to-int modes of src/brevitas/core/function_wrapper/ops_ste.py. Tensors are modelled element-wise; an element is an exact rational [Q]. |
| `IntQuant.v` | Src/brevitas/core/quant/int_base.py and src/brevitas/core/quant/int.py. |
| `Log2Q.v` | Exact floor / ceiling / rounding of the base-2 logarithm of a positive rational. These are the mathematical meaning of compositions such as floor(log2(x)); [log2] itself is never needed as a number. |
| `Scaling.v` | Statistics-based scaling and zero-points: src/brevitas/core/stats/stats_op.py, core/restrict_val.py, core/scaling/int_scaling.py, core/scaling/runtime.py, core/zero_point.py and the wrapper core/quant/int.py [RescalingIntQuant]. A tensor is the list of its elements (per-tensor scaling; a per-channel quantizer applies the same function to each channel slice). |
| `BinaryTernary.v` | Src/brevitas/core/quant/binary.py, core/quant/ternary.py, core/quant/delay.py, core/bit_width/parameter.py and core/bit_width/const.py. |
| `QuantTensor.v` | Src/brevitas/quant_tensor/int_quant_tensor.py: [IntQuantTensor]. A tensor is the list of its elements, all sharing one scale / zero point (a per-channel tensor is a family of such lists). Bit widths are integers. RuntimeErrors are [None]. The floating dtype is float32 (so the validity tolerance is 0.2). |
| `Linear.v` | Src/brevitas/quant_tensor/int_torch_handler.py (linear / convolution handlers and accumulator bit widths) and of the bias quantization in src/brevitas/proxy/parameter_quant.py. |
| `A2Q.v` | Accumulator-aware weight quantizers: src/brevitas/core/scaling/pre_scaling.py, src/brevitas/function/ops.py L206-219, src/brevitas/core/zero_point.py L301-328 and src/brevitas/core/quant/int.py L228-265, configured as in src/brevitas/quant/base.py L394-494 (AccumulatorAwareWeightQuant, AccumulatorAwareZeroCenterWeightQuant). One output channel at a time: the statistics are per channel (OverOutputChannelView, L1Norm with stats_reduce_dim), so [w] is the flattened weight of one channel. Division by zero, which gives inf/nan in torch, is [None]. |
| `Runtime.v` | Stateful scaling and zero-point modules that collect statistics: src/brevitas/core/stats/stats_wrapper.py [_RuntimeStats], src/brevitas/core/scaling/standalone.py [ParameterFromRuntimeStatsScaling], src/brevitas/core/zero_point.py [ParameterFromRuntimeZeroPoint], src/brevitas/core/utils.py [inplace_momentum_update], src/brevitas/core/restrict_val.py. One element of the (per-tensor or per-channel) statistic is modelled; all operations are element-wise. Logarithms and powers are needed here, so values are real numbers of the standard library. The statistics operator itself is abstracted: a call receives the value of the statistic on its batch. |
| `Minifloat.v` | Minifloat quantization: src/brevitas/core/quant/float.py, src/brevitas/core/function_wrapper/clamp.py [FloatClamp], src/brevitas/utils/float_quant_utils.py, src/brevitas/utils/torch_utils.py [float_internal_scale], src/brevitas/function/ops.py [max_float] and src/brevitas/core/scaling/float_scaling.py. Element-wise, exact rationals. [floor(log2 y)] on y > 0 is [floor_log2] (exact). |
| `Export.v` | Exported inference arithmetic: src/brevitas/export/common/handler/base.py, .../qcdq.py, src/brevitas/export/torch/qcdq/handler.py, src/brevitas/export/onnx/standard/qcdq/handler.py and src/brevitas/export/inference/handler.py. Per-tensor parameters, element-wise, exact arithmetic. The operators of the target runtimes (torch.quantize_per_tensor / ONNX QuantizeLinear, Clip, DequantizeLinear) are modelled after their documented meaning: QuantizeLinear computes saturate(round_half_even(x / scale) + zero_point). |
| `Trunc.v` | Integer truncation and average pooling: src/brevitas/core/quant/int.py [TruncIntQuant], src/brevitas/export/common/handler/qcdq.py [QCDQCastTruncQuantProxyHandlerMixin], src/brevitas/nn/quant_avg_pool.py, the pooling handlers of src/brevitas/quant_tensor/int_torch_handler.py and src/brevitas/graph/per_input.py. Tensors with spatial dimensions are functions from index tuples to values; one (batch, channel) slice at a time, which is how pooling acts. |
| `Groupwise.v` | Group-wise (sub-channel block) views: src/brevitas/utils/torch_utils.py [padding], src/brevitas/core/function_wrapper/shape.py [OverSubChannelBlockView], [DynamicOverSubChannelBlockView], src/brevitas/quant/solver/parameter.py [SolveParameterScalingShape], src/brevitas/quant/solver/common.py and src/brevitas/quant/experimental/mx_quant_ocp.py [stats_reduce_dim], src/brevitas/quant_tensor/groupwise_int_quant_tensor.py [expand]. A tensor is a shape with a function from index tuples to values, in row-major order as seen by torch's view / flatten. |
| `BatchNorm.v` | Batch-norm merging and moving: src/brevitas/nn/utils.py, src/brevitas/nn/quant_bn.py and src/brevitas/graph/fixed_point.py ([MergeBatchNorm], [MoveSplitBatchNormBeforeCat]). Real arithmetic (square roots occur). Per-channel vectors are functions of the channel index; weights are functions of index tuples. Weight and bias quantization of the merged layer is not part of this file (merge_bn only re-initialises the quantizers). |
| `ConcatCollapse.v` | [CollapseConsecutiveConcats]: src/brevitas/graph/fixed_point.py L126-171, with graph/base.py L58-67 (iteration until no rewrite applies). A traced graph is a list of nodes in execution order. A node is a concatenation or any other call. Tensors are a shape and an element function; torch.cat is modelled with its shape check (external behaviour). Errors are [None]. |
| `Equalize.v` | Cross-layer equalization: src/brevitas/graph/equalize.py. Real arithmetic (powers occur). A value is a function of channel and (flattened) position. The region walk (find_srcs, find_sinks, L753-870) is modelled for graphs without concatenations, so every offset is 0 and source and sink channels coincide. Broadcasting additions and multi-head attention are not modelled. |
| `ChannelSplit.v` | Channel splitting: src/brevitas/graph/channel_splitting.py. Layers, graphs and regions are those of Equalize.v (Lin layers have groups = 1 here: grouped layers, norms and sink attention layers are rejected by [_is_supported]). |
| `Gpxq.v` | Greedy weight calibration algorithms GPTQ, GPFQ and GPFQv2: src/brevitas/graph/{gpxq,gptq,gpfq}.py. One convolution group at a time (groups never interact); matrices are index functions, rows are output channels, columns the flattened input channels. Arithmetic is exact (the casts to float32 are not modelled). [quant W r c] is the value [quant_weight] gives entry (r, c) when the layer currently holds the weights [W]; it may depend on the whole matrix because the scale can be computed from it. |
| `SamePad.v` | Strided 'same' padding: src/brevitas/nn/quant_conv.py L93-102, L181-191, L272-293. One channel (channels only add up); a tensor is its list of sizes and an index function. A dimension carries the input size, kernel size, stride and dilation. |
| `StateDict.v` | State-dict rewriting code: src/brevitas/nn/utils.py L43-60 (renaming), src/brevitas/nn/quant_rnn.py L861-877 (recurrent stack), with Python dictionaries as association lists in insertion order and keys as strings. |
| `Rnn.v` | Recurrent layers, src/brevitas/nn/quant_rnn.py, and their mixin src/brevitas/nn/mixin/base.py L150-250. One batch element; vectors are index functions, matrices too; all quantizers are functions on vectors (a disabled one is the identity). Export mode and the scripted fast cell (same code) are left out. |
| `Calibrate.v` | Src/brevitas/graph/calibrate.py: calibration_mode L85-106, DisableEnableQuantization L168-254, load_quant_model_mode L137-151, ClipFloatWeights L154-165, _BiasCorrection L257-357, norm_correction_mode L360-385. Modules are numbered; [mods] is [model.modules()], [subs m] is [m.modules()]. The mutable attributes of a module form a record; [None] means [hasattr] is false. |
| `Cache.v` | Inference caches of the quantization proxies and of [quant_inference_mode]: src/brevitas/proxy/parameter_quant.py, src/brevitas/proxy/runtime_quant.py, src/brevitas/common.py, src/brevitas/export/manager.py, src/brevitas/export/inference/{manager,handler}.py and src/brevitas/utils/quant_utils.py. Tensors are abstract. [W] is the type of a weight parameter, [V] of its dequantized value, [M] of its quantization metadata (scale, zero point, bit width); [P] is the parameter of an activation quantizer, [X] its input, [A] its output and [S] its metadata. [tqw]/[tqa] are the [tensor_quant] modules, [rqw]/[rqa] the arithmetic of the inference handlers (handler.py L56-63), which only see the metadata. Dynamo compilation is not modelled. |
| `Ste.v` | Straight-through estimators and of the gradients they induce on the quantizers: src/brevitas/ops/autograd_ste_ops.py, src/brevitas/function/ops_ste.py, src/brevitas/function/ops.py, src/brevitas/csrc/autograd_ste_ops.cpp, src/brevitas/core/function_wrapper/{clamp,ops_ste}.py and src/brevitas/core/quant/{int_base,binary,ternary,float}.py. Real arithmetic (no rounding of floats, no NaN). A tensor element is a dual number: its value and its derivative along a direction of all differentiable inputs (parameters, scale, zero point, bit width, input). The autograd Functions return [grad_y] for their first argument and None for the others, i.e. the derivative of the result is the derivative of the first argument; for all other operations the derivative is PyTorch's. |
| `LearnedRound.v` | Learned and stochastic rounding: src/brevitas/core/function_wrapper/{learned_round,stochastic_round}.py and the initialisation in src/brevitas_examples/imagenet_classification/ptq/learned_round_utils.py. One element at a time, real arithmetic. The tensor slicer (whole tensor outside sub-layer optimisation) is not modelled. |
| `Mse.v` | Mean-squared-error search of core/stats/stats_op.py L439-568 ([_set_local_loss_mode], [_set_observer_mode], [_restore_observer_mode], [MSE]) and of the parts of the half-quadratic optimisers (L571-760) the properties talk about. Real arithmetic; losses may be infinite or NaN. A tensor of candidates (one per channel) is an index function. Every operation of the two searches other than [evaluate_loss] is elementwise. The proxy is a function of the module flags it sees and of the candidate: that a quantizer call can also change its own buffers is not modelled here. |
| `BitWidthLoss.v` | Src/brevitas/loss/weighted_bit_width.py. The hooked modules are given by the calls the hooks observe during forward passes: one [call] per execution of a hooked module. Bit widths are rationals (learned ones are integral after rounding; nothing below needs it). |
| `RequantGraph.v` | Insertion and alignment of activation quantizers on a traced graph: src/brevitas/graph/quantize_impl.py L54-L426 and graph/quantize.py L175-L280, with the rewriters of graph/base.py L160-221 and graph/utils.py (replace_module). A traced graph is the list of its nodes in execution order. Modules are instances that may be registered under several names; a quantizer is a [tensor_quant] object, identified by a number, with its scaling modules, its sign and its bit width. Simplifications. Activation quantizers are enabled integer quantizers (a disabled one makes [_tensor_quant_in_list] raise AttributeError). The activation-equalization special case of act_handler (L410-422) is not modelled. Exceptions are [None]. |
| `FloatQuant.v` | Integer quantization evaluated in IEEE-754 binary arithmetic with rounding to nearest, ties to even. [prec]/[emax]: 24/128 is torch.float32, 11/16 torch.float16, 8/128 torch.bfloat16. Half and bfloat16 kernels compute in single precision and round once more; for one multiplication, division, addition or subtraction this is the correctly rounded result (24 >= 2*11+2), so one rounded operation of the narrow format is used. Not modelled here: NaN payloads, the STE gradients, broadcasting (one scale, zero point and element at a time), delay_wrapper (zero delay steps). |
| `Percentile.v` | Percentile statistics: src/brevitas/core/stats/stats_op.py [AbsPercentile], [NegativePercentileOrZero], [PercentileInterval], src/brevitas/utils/torch_utils.py [kthvalue], and the activation quantizer that combines them (src/brevitas/quant/base.py [ShiftedParamFromPercentileUintQuant], [ParamFromRuntimePercentileIntervalScaling]). Values and percentages are rationals; the rank arithmetic in double precision is in PercentileRank.v. |
| `PercentileRank.v` | The ranks of src/brevitas/core/stats/stats_op.py L71, L79, L105, L113, L141-143, L152-154 evaluated in Python's double precision: every product and sum is the exact result rounded to nearest even (Flocq; overflow does not occur for percentages and tensor sizes). |
| `ChannelStats.v` | Statistics of weights and activations per tensor and per output channel: src/brevitas/core/function_wrapper/shape.py [PermuteDims], [OverTensorView], [OverOutputChannelView]; src/brevitas/function/shape.py; src/brevitas/core/stats/ view_wrapper.py and stats_wrapper.py [_Stats], [_ParameterListStats]; src/brevitas/quant/solver/weight.py and common.py (shapes and dimensions). Tensors as in Groupwise.v. [stat] is the reduction of one row (stats_op.py), arbitrary here. Restriction and thresholds are applied element-wise afterwards (Scaling.v). |
| `EqLayout.v` | Weight layouts behind equalization: which axis of a weight is taken for the input and output channels, the size checks and the scaling along that axis: src/brevitas/graph/equalize.py L254-306, L386-602 and L676-695. Real arithmetic. A weight is a function of its first two axes and the flattened remaining ones. Regions without concatenation (start and offset 0, end the size of the axis), without multi-head attention and without merging of the bias into the range. |
| `ActEqualize.v` | Activation equalization: src/brevitas/graph/equalize.py L945-1188 and the parts of [_cross_layer_equalization] (L386-602) it uses, and src/brevitas/nn/equalized_layer.py. Real arithmetic. The input of a layer for one sample is a [value] (feature, flattened other positions) with P positions. Named tensors, offloading, co-optimisation and regions with concatenations are not modelled. |
| `CatEq.v` | Cross-layer equalization through concatenations: src/brevitas/graph/equalize.py L93-160 (indexes and walk state), L386-602 (application), L698-905 (region search). Real arithmetic, values and layers as in Equalize.v. Every concatenation is torch.cat along the channels. Reshaping operators, multi-head attention, activations and additions that broadcast are not modelled. |
| `EqAxis.v` | Feature axis in equalization: src/brevitas/graph/equalize.py L309-327 ([_get_act_axis]) and the axis check of L454-474, on a source followed by a sink. Real arithmetic. An activation of one sample has two dimensions, value r c. Convolutions take their channels along the first and linear layers along the last; a batch norm normalises along the first and a layer norm along the last (torch, external). |
| `Standardize.v` | Graph standardization passes: src/brevitas/graph/standardize.py and the part of src/brevitas/graph/base.py L245-331 and src/brevitas/graph/utils.py L77-96 they use. A traced graph is a list of nodes with a dictionary of the named modules (named_modules of the GraphModule, in order; a module registered twice is listed once). Values are abstract; modules are seen in evaluation mode as (partial) functions of their arguments. Node names, module names and string targets are strings. Keyword arguments of nodes are not modelled except for [mean]. |
| `LayerReplace.v` | Module replacement: src/brevitas/graph/quantize_impl.py L429-541 ([layer_handler] without its requantization, [find_module], [layerwise_layer_handler]), src/brevitas/graph/base.py L107-157 ([ModuleToModule]) and L208-221 ([ModuleToModuleByInstance]), src/brevitas/graph/utils.py L85-125 and src/brevitas/graph/quantize.py L325-370 (saved and restored state). A module is a tree of objects. Objects carry an identity: a module registered under several names is the same subtree with the same identities, and writing into an object is seen at each of its occurrences. Names are paths, the lists of the atoms between the dots (torch refuses dots and empty strings in names of children). The inside of a new quantized module is not represented: its tensors are those loaded from the old module, under the same names. |
| `Mha.v` | Src/brevitas/nn/quant_mha.py: QuantMultiheadAttention in evaluation mode (L285-687) and its checkpoint loader (L689-733). Tensors are index functions with explicit sizes over the reals. Quantizers are functions of one element (per-tensor scales at inference), that of the scores also of minus infinity; the projections hold the weights and biases after quantization. [None] is an exception. Static keys and values (never passed by [forward]) and dropout (off in evaluation mode) are left out. |
| `Inject.v` | Src/brevitas/inject/__init__.py (resolution of injector attributes and inheritance of injectors) and of the routing of keyword arguments to quantizers (src/brevitas/nn/mixin/utils.py, src/brevitas/nn/mixin/base.py L34-60). Values, classes and functions are abstract; what the external package [dependencies] computes from a class or a [this] expression is the [spec] that the outcome carries. The replacement of nested injectors through the [_Replace] exception is left out. The dictionary [cls.__dependencies__] is threaded through; Python exceptions are [Failed] with the dictionary they leave behind. |
| `Handlers.v` | Src/brevitas/quant_tensor/torch_handler.py, of the shape methods of src/brevitas/quant_tensor/int_quant_tensor.py, of [embedding_handler] of src/brevitas/quant_tensor/int_torch_handler.py and of src/brevitas/nn/quant_upsample.py: tensor operations that keep the quantization metadata. Tensors have shapes; metadata are tensors that broadcast. The bit width is one number. Values are rational numbers (floating-point error is the subject of C54 and C80). Exceptions are [None]. The torch operations themselves are modelled below as torch documents them. |
| `GpxqMode.v` | Src/brevitas/graph/gpxq.py [gpxq_mode] L69-186 and of the forward functions it installs, gptq.py L79-93 and gpfq.py L92-125: the order in which GPTQ and GPFQ visit the layers of a model, what they collect for each, and what they leave behind. The per-layer algorithms are in Gpxq.v. Layers are named by their qualified names. One forward pass of the network calls the supported layers in the order of [calls]; the input of the [j]-th call is a function of the batch and of the weights ([input true]: quantizers on, [input false]: off). A pass that raises StopFwdException is cut at that call. The set [current_layer.layer_names] is a list in order of insertion; [update] visits it in that order (its members do not influence each other). |
| `FloatTensor.v` | Src/brevitas/quant_tensor/float_quant_tensor.py [FloatQuantTensor], of the parts of src/brevitas/quant_tensor/base_quant_tensor.py it inherits, and of the pass-through branch of src/brevitas/proxy/float_runtime_quant.py. A tensor is the list of its elements, all sharing one scale and one zero point (a per-channel tensor is a family of such lists); elements may be infinite or NaN. The dtype is float32 (so the validity tolerance is 0.2) and the arithmetic is exact. The widths and the exponent bias are float tensors in the code, hence rationals here, because [cat] averages them; they are integral in everything a quantizer produces, and [pre_round_float_value] is only faithful there (it takes their floor). Exceptions are [None]. [eps] is torch.finfo(scale.dtype).tiny (L77-79). |
| `Float8Export.v` | ONNX QCDQ export of FP8 quantizers: the standard-format tests of src/brevitas/proxy/float_runtime_quant.py and float_parameter_quant.py, the preparation in src/brevitas/export/common/handler/qcdq.py, the checks of src/brevitas/export/onnx/standard/qcdq/handler.py, and the formats built by src/brevitas/quant/experimental/float_base.py, float_quant_ocp.py and float_quant_fnuz.py. Exceptions are [None]. The zero point of every minifloat quantizer is zero. |
| `FloatScaling.v` | Statistics-based weight scaling evaluated in IEEE-754 binary arithmetic (the formats of [FloatQuant]): src/brevitas/core/stats/stats_op.py, core/scaling/runtime.py, core/scaling/int_scaling.py, core/zero_point.py and core/quant/int.py [RescalingIntQuant], for FloatRestrictValue and RoundSte. One channel (or one tensor) of weights is a list. Integer constants are exact in the formats and bit widths considered. torch.clamp_min with a Python scalar compares with the scalar rounded to the tensor's type: the default scaling_min_val of 1e-10 is a normal number of float32 and bfloat16, and zero in float16 (half of its smallest subnormal is 2^-25). |
| `QonnxExport.v` | QONNX export: src/brevitas/export/onnx/qonnx/handler.py and function.py, with the proxy attributes they read (src/brevitas/proxy/quant_proxy.py L24-48, src/brevitas/utils/quant_utils.py L204-223, src/brevitas/quant/solver/common.py L37-53). One scale and zero point at a time (a per-channel quantizer is one such tensor per channel), exact arithmetic, evaluation mode. The keyword dictionary of a handler is an ordered list whose values are passed by position, as [*self.symbolic_kwargs.values()] does. |
| `StaticScaling.v` | Scales and zero points that are set by the user or learned without statistics of activations: src/brevitas/core/scaling/standalone.py [ConstScaling], [ParameterScaling], src/brevitas/core/zero_point.py [ParameterZeroPoint], [ParameterFromStatsFromParameterZeroPoint], src/brevitas/quant/solver/act.py [MinMaxScalingInit], and the integer quantizer they feed (core/quant/int.py [RescalingIntQuant], core/quant/int_base.py [IntQuant] with RoundSte). Real arithmetic; one element of the scale at a time except for the shapes of the learned scale. The value restrictions are those of [Runtime]. |
| `SliceWeight.v` | Quantization of a part of a weight: src/brevitas/nn/mixin/parameter.py [QuantWeightMixin.quant_weight], src/brevitas/core/utils.py [SliceTensor], src/brevitas/core/function_wrapper/learned_round.py [LearnedRoundSte] and its only user src/brevitas/graph/gpxq.py [GPxQ.get_quant_weights]. A tensor is a shape and a function on multi-indices; only the values of quantized tensors are modelled. The scale and zero point of the weight quantizer depend on the tracked (whole) weight only, so they are tensors here. Slice bounds are not negative. |
| `LayerRank.v` | Linear layers on quantized tensors of any rank: the handlers of src/brevitas/quant_tensor/int_torch_handler.py (L140-237), the bias proxy of src/brevitas/proxy/parameter_quant.py (L307-362) and the packing of layer outputs in src/brevitas/nn/quant_layer.py (L135-161) and src/brevitas/nn/mixin/base.py (L99-104). Tensors, slices and broadcasting are those of SliceWeight.v, the arithmetic is exact. The linear operation is a list of products for every output position, see [linop]; dtype, device and training flags are left out. Linear.v models the same handlers for one row of a two-dimensional input. |
| `ExportState.v` | What an export does to the model: src/brevitas/common.py (L10-48, [ExportMixin]), src/brevitas/export/manager.py (L53-236), src/brevitas/export/onnx/manager.py (L107-191) and the parts of src/brevitas/proxy/runtime_quant.py and src/brevitas/proxy/parameter_quant.py that look at the export state. A model is the list of its modules in the order of [modules()], the root first; no quantization proxy contains another one, so [apply] reaches the proxies in the same order. [P] is the state of a quantizer (parameters and buffers), [M] what its handler stores (scale, zero point, bit width, quantized weight); [meta] computes it. Not modelled: recurrent layers, dynamic activation quantizers, quantized biases whose scale comes from the input, passthrough of quantized tensors by disabled activations, weight caching, the ONNX graph itself. |
| `Mx.v` | MX (microscaling) quantizers: src/brevitas/quant/experimental/mx_quant_ocp.py, src/brevitas/core/scaling/runtime.py [_StatsScaling], [RuntimeDynamicGroupStatsScaling], src/brevitas/core/restrict_val.py [_RestrictClampValue], [PowerOfTwoRestrictValue], src/brevitas/core/scaling/int_scaling.py and float_scaling.py, src/brevitas/quant/base.py [MaxStatsScaling], [IntQuant]. Exact rationals; log2 appears only under a ceiling and is exact there (float rounding of torch.log2 near a power of two, and overflow of 2.0 ** x, are not modelled). The views, the reduction over the groups and the broadcast of the scale are those of [Groupwise]. |
| `QuantState.v` | Where weight quantizers keep their state: sharing a quantizer between layers, replacing weights, folding batch norms, optimizers, saving and loading checkpoints. src/brevitas/proxy/quant_proxy.py [QuantProxyFromInjector], src/brevitas/proxy/parameter_quant.py [ParameterQuantProxyFromInjector], src/brevitas/nn/mixin/base.py [QuantProxyMixin], src/brevitas/nn/mixin/parameter.py [QuantWeightMixin], src/brevitas/nn/utils.py [merge_bn], src/brevitas/core/scaling/standalone.py, src/brevitas/core/scaling/runtime.py [StatsFromParameterScaling], src/brevitas/core/stats/view_wrapper.py, src/brevitas/config.py. A Parameter object is a cell of a heap; weights and scales are values of an abstract type. A model is a list of layers in module order, each with a weight and a weight quantizer (proxy), which layers may share; quantizers have one scale. Zero points, bit widths, biases and activation quantizers follow the same pattern and are left out. Layers are never removed. |
| `ScaleBias.v` | Layers standing in for a batch norm: src/brevitas/nn/quant_scale_bias.py, src/brevitas/nn/quant_bn.py, src/brevitas/nn/utils.py [mul_add_from_bn]. Real arithmetic (square roots occur). Tensors are a shape and a function of the index; broadcasting is that of [SliceWeight]. The input and the output are not quantized and the input is a plain tensor; the weight and bias quantizers are arbitrary functions on vectors. dtype, device and the entries of the quantizers in a checkpoint are left out. |
| `Hadamard.v` | Src/brevitas/nn/hadamard_classifier.py [HadamardClassifier]. Real arithmetic. The input is a matrix with one row per sample (further leading dimensions are flattened); scale, zero point and bit width of a quantized input are per tensor and the bit width is a whole number. dtype, device and tracing are left out, and so is the rounding of [math.log(..., 2)], which can only enlarge the matrix ([C110_size]). |
| `IOLayers.v` | Src/brevitas/nn/quant_eltwise.py [QuantEltwiseAdd], [QuantCat], src/brevitas/nn/quant_embedding.py [QuantEmbedding], the base class [QuantInputOutputLayer] of src/brevitas/nn/quant_layer.py and the embedding handler of src/brevitas/quant_tensor/int_torch_handler.py. Tensors are lists of elements and operands have the same shape. Activation quantizers are integer quantizers with a fixed scale, integer zero point and bit width. Exceptions are None. Export mode, tracing and gradients are left out. |
| `GroupTensor.v` | Group-wise quantized tensors and of what can be done with them: src/brevitas/quant_tensor/groupwise_int_quant_tensor.py [GroupwiseIntQuantTensor], src/brevitas/quant_tensor/groupwise_float_quant_tensor.py [GroupwiseFloatQuantTensor], src/brevitas/quant_tensor/base_quant_tensor.py [QuantTensor], src/brevitas/quant_tensor/torch_handler.py, src/brevitas/nn/mixin/base.py [QuantLayerMixin.unpack_input], src/brevitas/utils/quant_utils.py [_CachedIOGroupwiseInt], [_CachedIOGroupwiseFloat]. A tensor is a shape with a function from index tuples to rationals ([Groupwise.tens]); the dtype is float32 (validity tolerance 0.2) and the arithmetic is exact. Exceptions of any kind are [None]. Divisions by zero, which give infinities in torch, are outside of the model: the theorems about divisions ask for non-zero divisors. |
| `FlexML.v` | Layers for the FlexML target: src/brevitas/nn/target/flexml.py [FlexMLQuantAvgPool2d], [FlexMLQuantLeakyReLU], of the quantizers they use by default (src/brevitas/quant/fixed_point.py [Int8ActPerTensorFixedPoint], [Uint8ActPerTensorFixedPoint], over src/brevitas/core/scaling/standalone.py [ParameterFromRuntimeStatsScaling]), and of how src/brevitas/graph/target/flexml.py hands them to the layers of a network. Exact rational arithmetic. One channel of one image is a function of row and column. |
| `OldCkpt.v` | Code that rewrites checkpoints of older versions, or of quantizers that kept running statistics: src/brevitas/proxy/utils.py [ConvertRuntimeStatsToParameter], src/brevitas/core/scaling/standalone.py (the name learned_value), src/brevitas/core/bit_width/parameter.py [_load_from_state_dict], src/brevitas/proxy/quant_proxy.py and src/brevitas/proxy/runtime_quant.py (the entry zero_hw_sentinel), src/brevitas/nn/quant_layer.py L56-62, and of the scale of src/brevitas/core/scaling/runtime.py [RuntimeStatsScaling] that such a checkpoint comes from. Checkpoints are the dictionaries of [StateDict]; one real number per entry (the rewriting is element-wise). |
| `EpInit.v` | Initialisation of accumulator-aware quantizers by Euclidean projection: src/brevitas_examples/imagenet_classification/a2q/ep_init.py. Exact rational arithmetic. A vector is a list; a raised exception is [None]. |
| `PackWeights.v` | Packing of integer weights into bytes: src/brevitas_examples/llm/llm_quant/export.py [LinearWeightBlockQuantHandler.pack_int_weights]. One row of the weight matrix (the code treats rows alike); an int8 or uint8 element is given by its code, a packed one by its byte (0 to 255). An exception is [None]. |

## 4. What is not modelled

* `backport/**`, `fx/**` (tracers), `jit.py`, `config.py`, the parts of `inject/**` not cited by `Inject.v`,
  `utils/jit_utils.py`, `utils/logging.py`, `utils/python_utils.py` (except `AutoName.__eq__`, used by `QonnxExport.v`).
* The autograd engine (only the derivative rules of the library's own functions), TorchScript,
  Dynamo, devices, dtype promotion, CUDA determinism, random number generators.
* The quantizer class hierarchy `quant/**` other than the constants and solver rules cited by
  the model files; quantizer configurations appear as parameters of the models.
* `export/onnx/**` other than the standard QCDQ handlers and the QONNX quantizer handlers; the QONNX LSTM cell, debug hooks.
* Broadcasting in `nn/quant_eltwise.py`;
  `graph/target/flexml.py` other than its leaky ReLU entry,
  `function/shape.py` other than `over_tensor` and `over_output_channels`.
* `quant_tensor/float_torch_handler.py`.
* In equalization: broadcasting additions, reshapes that move the channel axis, co-optimisation
  with the bias (`_combine_weights_bias`), multi-head attention inside graph regions.
* `src/brevitas_examples` except the learned-round initialisation.

## 5. Findings

Every item is backed by a `_refuted` theorem (or by the theorem named) about the model; line
numbers are in the comments of the model files. "Confirmed" means confirmed in the model,
by reading; the code was not run.

### Integer quantization and scaling

* **C08** A signed quantizer with the full range is not symmetric: -2^(b-1) has no positive counterpart, for every bit width.
* **C10** With statistics-based scaling and a non-narrow signed range the positive extremum is clipped by one scale step.
* **C11** The shifted (asymmetric) quantizer clips an all-negative tensor because the negative minimum is used without the maximum-or-zero guarantee.
* **C12** A minimum scale such as 1e-10 is applied after the power-of-two restriction and breaks it.
* **C13** Ternary quantization with threshold 1 is not idempotent.
* **C14** A learned bit width stored below the minimum is reflected to 2*min-stored by the absolute value, and removing bits is not monotone.
* **C27** Calls in evaluation mode consume the quantization delay.
* **C54** In bfloat16, unsigned 8-bit codes are not recovered by int() (255 is read as 254 with scale 129/128) although is_valid accepts the tensor; quantizing a saturated signed 8-bit value again changes it (190 to 189 with scale 1.5).
* **C80** In float32, max_int of a signed 32-bit quantizer (Int32Bias) is 2^31, so the code 2^31 passes the clamp.

### QuantTensor arithmetic

* **C16** Addition of mixed-sign, one-bit or very-small-scale tensors gives results outside the declared bit width or rejected by is_valid.
* **C17** Negating the most negative code, negating or taking the absolute value with a zero point, and mixed subtraction give invalid metadata.
* **C18** int() of an unsigned tensor wider than 31 bits wraps; is_valid of a one-bit tensor does not bound the codes.
* **C19** Concatenation accepts tensors with different tiny scales and, in training mode, averages their metadata.
* **C20** max_acc_bit_width is too small for unsigned inputs times full-range signed weights (8x8 bit, n = 258), for 1x1-bit products with n = 2, and for transposed convolutions (uses the number of output channels).
* **C23** The bias quantizer ignores its sign.
* **C34** Truncation with rounding overflows (signed 8-bit 127 truncated to 4 bits gives 8); the zero point is not rescaled; the exported graph saturates and differs.
* **C35** The declared width of a pooled sum is too small for full-range signed inputs and for one-bit inputs; windows whose size is not a power of two do not average (nine 16s give 9); adaptive pooling 10 to 4 uses a wrong window.
* **C58** count_include_pad=False and ceil_mode are ignored by quantized average pooling.
* **C30** Group-wise tensors keep their padding in the expanded value; a negative group_dim other than -1 is expanded wrongly.
* **C31** group_dim=-1 gives g groups of N/g elements instead of groups of g.

### Accumulator-aware and minifloat quantizers

* **C21** An all-zero channel divides zero by zero; rounding to nearest instead of towards zero would overflow the accumulator.
* **C28** An unsigned non-saturating minifloat emits -inf; formats with 8 exponent bits lose a mantissa bit near 2^-126 because of eps.
* **C55** The inference handlers ignore the rounding mode (integer) and the largest representable value (float: 480 instead of 448), and mask on the unscaled input.

### Statistics and calibration

* **C24** Loading a checkpoint and resuming multiplies the running statistics instead of averaging.
* **C25** Weight decay acts on the placeholder, a local-loss call at the last collection step converts the parameter, and the power-of-two restriction is not applied while collecting.
* **C26** _FULL_STATE_DICT saves the placeholder 1 as the scale.
* **C47** Quantizers the user had disabled come back enabled after calibration; calibration_mode(enabled=False) still finalises statistics; collect_stats_steps is left at its maximum.
* **C48** Bias correction weights batches equally whatever their size; the check for a layer called several times never fires; rank-4 outputs of linear layers use channel dimension 1.
* **C57** One NaN loss freezes the grid search at a candidate that was never evaluated; a negative initial value breaks the Fibonacci search; num < 2 raises; a stale candidate is reused in local-loss mode.
* **C69** Norm correction sets the variance to sqrt(old*new).
* **C81** A percentile whose rank rounds to zero raises (AbsPercentile on small tensors, low percentile 0), and ceil of .01*q*n in double precision can be one too high (7% of 100 gives rank 8).
* **C82** For all-negative data PercentileInterval measures the interval up to the high percentile and not up to zero, so the shifted quantizer clips inside it.
* **C83** Per-channel weight quantizers raise for every transposed convolution with groups: out_channels is not the size of weight dimension 1.
* **C76** The half-quadratic scale update subtracts the zero point twice; the zero-point optimiser keeps its grown beta between calls.

### Inference caches and export

* **C101** In the QONNX export any quantizer of bit width 1 becomes BipolarQuant: QuantReLU(bit_width=1), with levels 0 and s, is exported with levels -s and s (`C101_one_bit_activation_refuted`, `C101_one_bit_weight_refuted`).
* **C101** A ternary activation is exported as a rounding 2-bit Quant node, which ignores its threshold: the two agree exactly when the threshold is 1/2 (`C101_act_ternary`).
* **C101** `_rounding_mode` prefers an inherited `float_to_int_impl_type` to the `float_to_int_impl` that is used (`C101_rounding_conflict_refuted`), and does not normalize the case of the user's string (`C101_attribute_case_refuted`).
* **C101** The bias of a layer called several times is exported with the accumulator scale of the last call (`C101_bias_two_calls_refuted`).
* **C101** An activation layer whose quantizer is disabled (QuantReLU(act_quant=None)) gets a handler that is never prepared, so its export raises (`C101_act_rejected`).
* **C49** A weight cache enabled by hand survives training and weight updates, and the handlers compute with the old weight.
* **C72** The activation cache is never cleared, so scale() stays stale after inference mode; a session without a forward pass leaves its hook; a disabled activation quantizer makes the second forward pass in inference mode fail.
* **C32** Export differs from the quantizer at half-way inputs with an odd zero point; a negative signed zero point cannot be exported.

### Graph transformations

* **C36** Merging batch norm into a layer that is called from two places changes the other call.
* **C37** Equalization changes the function when a constant is added between source and sink, on gated residuals a*b+c, and for shared modules.
* **C84** For depthwise convolutions with several inputs per group and depthwise transposed convolutions the input axis is wrong (_get_input_axis); with a second sink the size check passes and the function changes. The output axis of a grouped transposed convolution has out/groups channels: paired with a grouped convolution the function changes, and two depthwise transposed convolutions with bias raise.
* **C85** The chained comparison q != k != v does not skip cross-attention whose key is its value: the equalized model raises at its next forward. EqualizedModule checks only the key and replaces a different value by the scaled query. The 'range' statistic records a range of ranges. An unbatched convolution input with as many positions as channels is scaled along the wrong axis.
* **C86** Behind a second concatenation: a consumer that cannot be scaled (such as the graph output) is dropped and the output changes; a value concatenated with itself is compensated once; an added operand becomes a source without a module and raises KeyError. A branch that ends in an addition stops the offset from advancing: cat(a + b, c) is silently left alone although cat(c, a + b) is equalized.
* **C87** Weight equalization does not check the feature axis: Linear followed by Conv1d with as many positions as features changes the function; a LayerNorm source escapes the check of activation equalization.
* **C38** Channel splitting changes the function when a constant is added (output split) and gives shared modules extra channels.
* **C41** Collapsing concatenations loses a copy when the inner concatenation is listed twice.
* **C42** Moving batch norm before a concatenation does not copy epsilon; the inserted modules start in training mode.
* **C53** After quantize(), x + relu(f(x)) has an unsigned input quantizer (negative inputs are clipped); graph inputs and constant operands are ignored by the sign analysis; signed QuantIdentity and QuantHardTanh are taken for unsigned.
* **C77** The alignment check ignores the bit width: operands with shared scaling modules but different widths have different scales.
* **C78** quantize() never converges when an operand of an addition is produced by the method transpose, and on x + relu(f(x)), x + relu(g(x)); it raises after 9999 iterations.

### Weight calibration

* **C39** With statistics-based scales GPTQ depends on the number of blocks and its result is off its own final grid.
* **C61** The GPFQ row-sampling index check is off by one.
* **C62** GPFQv2 damping shrinks the first column.
* **C63** GPTQ/GPFQ updates are lost for transposed convolutions; QuantConvTranspose3d slices with the wrong channel count.
* **C52** A negative learned-round temperature is accepted (evaluation rounds against training); integer weights can move up a step.

### Graph standardization

* **C88** DuplicateSharedStatelessModule overwrites a user module whose name is `<module>_1` (the graph then computes another function) and renames method calls named like a module.
* **C88** A functional call whose node name is a registered module name makes quantize()'s preprocessing raise AssertionError.
* **C88** RemoveStochasticModules loses an operand of `add(sd, sd)` and raises when the output has two users.
* **C88** DisableLastReturnQuantTensor clears the flag of an inner quantizer when the last output has two users.
* **C88** `x.mean(dim=(2, 3))` raises while rewriting; `x.mean((2, 3), keepdim=False)` raises when called.

### Layer replacement

* **C89** A layer called from two nodes makes quantize() raise KeyError (its quantized class derives from the float one but is not in the map); so do subclasses of supported layers and models already quantized.
* **C89** layerwise_quantize leaves the second name of a layer registered twice in one module in float, unties layers shared by two modules, and replaces a blacklisted name of a shared layer.
* **C89** layerwise_quantize of a model that is itself a layer returns it in float, with a quantized child under the empty name.
* **C89** nn.RNN and nn.LSTM with bias=False are rebuilt with bias=True (the boolean is not None); loading their weights then misses the biases.
* **C89** Quantizing a model in training mode puts submodules frozen in evaluation mode back in training mode.

### Layers and checkpoints

* **C43** The 3-D guard of strided 'same' padding omits the depth (size 4, kernel 3, stride 2 gives 1 output instead of 2).
* **C46** Unidirectional multi-layer recurrent stacks with an explicit initial state always raise.
* **C65** LSTM shared input weights swap the input and forget gates; with cifg the input gate is not shared.
* **C50** Renaming two checkpoint keys to the same name loses a value.
* **C66** Recurrent stacks of 11 or more layers fail to load with KeyError; a module whose name contains _l0 loses its own entries.

### Gradients

* **C73** With crossed bounds tensor_clamp returns the lower one and the scalar clamp the upper one.
* **C74** The gradient of minifloat quantization is q/u instead of 1, and the scale gets almost no gradient from normal values.

### Multi-head attention

* **C90** A packed QuantMultiheadAttention decides that key and value are the query by comparing data pointers. A query that is a leading slice (`x[:1]` with key = value = x, as in attention pooling) passes the check and attends to itself only (`C90_same_pointer_refuted`, `C90_pointer_only`).
* **C90** With `softmax_input_quant` enabled, minus infinity becomes the smallest quantized score: masked and padded keys keep a positive weight (`C90_score_quant_leaks`).
* **C90** A float key_padding_mask is added to the scores only without an attention mask; next to a boolean one every nonzero entry excludes its key, next to a float one the call raises (`C90_float_padding_refuted`, `C90_two_float_masks_raise`).
* **C90** kdim different from vdim always raises although the constructor accepts it (`C90_kdim_vdim_raises`): forward never passes use_separate_proj_weight.
* **C91** Checkpoint names are matched as substrings: `attn` takes the keys of `cross_attn` when given the whole state dict (`C91_sibling_refuted`); a bias of uneven size is cut without an error (`C91_uneven_bias_refuted`).

### Injectors and keywords

* **C92** An attribute access that raises midway (a missing argument of a chosen class) leaves the chosen class in `__dependencies__`: quantizers derived from that injector afterwards ignore the attribute that makes the choice (`C92_exception_refuted`).
* **C92** A `@value` that returns a `this` expression giving a class is replaced twice and restored to the intermediate expression (`C92_twice_refuted`).
* **C93** Injector inheritance is depth first: with two bases of common ancestry what the left base merely inherits hides what the right base redefines, unlike Python's own order (`C93_diamond_refuted`). No quantizer shipped with brevitas is affected.
* **C93** QuantRNN filters its accumulator keywords with `gate_acc_quant_` where QuantLSTM uses `gate_acc_`: `gate_acc_bit_width` is silently ignored (`C93_rnn_gate_acc_refuted`). Unknown keywords are ignored by every weighted layer (`C93_unknown_ignored`).

### Quantized tensor operations

* **C94** view, reshape and flatten keep per-channel scales as they are: int() then returns other integers (`C94_reshape_refuted`) or a tensor of another shape (`C94_flatten_refuted`), without an error; pixel_shuffle likewise (`C94_pixel_shuffle_refuted`).
* **C94** transpose and permute move the scale only when it has the rank of the tensor; a scale of one value per column stays (`C94_transpose_refuted`).
* **C95** relu6 and hardtanh of a quantized tensor clip to values off its grid and keep the label (`C95_relu6_refuted`, `C95_hardtanh_refuted`); relu with a non-integer zero point, as adding a plain tensor leaves it, does the same (`C95_relu_refuted`).
* **C95** Padding with an unrepresentable value, or over the channels of a per-channel tensor, dropout in training mode and bicubic upsampling give invalid quantized tensors (`C95_pad_refuted`, `C95_pad_channels_refuted`, `C95_dropout_refuted`, `C95_upsample_cubic_refuted`); so does upsampling with a non-integer zero point (`C95_upsample_zero_point_refuted`).

### GPTQ and GPFQ contexts

* **C96** If another layer is called between the members of a `group_of_parallel_layers` entry, the forward pass is not stopped at the group: the layer in between is updated together with the group, from inputs computed with the old weights of the group (`C96_interleaved_group_refuted`).
* **C96** A supported layer called like the joined name of a group (`a_b` beside the group `[a, b]`) loses its entry in the dictionary and is silently not optimised (`C96_name_collision_refuted`).
* **C96** `__exit__` removes no hooks: a supported layer that no calibration batch reached keeps its hook, and the first later call of it raises `StopFwdException` to the user (`C96_leftover_hook_refuted`).
* **C96** The constructor replaces `model.forward`; if `__enter__` raises (unknown layer in a group) `__exit__` does not run and the model keeps returning None (`C96_forward_restored_refuted`).
* **C97** `gpfq_mode` with `use_quant_activations=False` overwrites `return_quant_tensor_state` in every batch with the already cleared flags, so all `return_quant_tensor` flags are False afterwards (`C97_gpfq_flags_lost`).
* **C97** `gpfq_mode` leaves every proxy in evaluation mode (`C97_gpfq_eval`).

### Floating-point quantized tensors and their export

* **C98** `minifloat()` and `is_valid` divide by the scale but take the exponent of the scaled value: with a scale above one the result is wrong (`C98_large_scale`), a valid tensor is called invalid and negation, abs and subtraction raise (`C98_scale_refuted`), or negation silently returns another number (`C98_neg_refuted`, 9 becomes -8) and a - a is 1 (`C98_sub_refuted`).
* **C98** `check_bit_width_same` raises only when both widths differ, and the infinity check only when infinities and NaNs both differ: torch.cat joins tensors of different formats under the first one's label (`C98_cat_refuted`, `C98_cat_special_refuted`); formats without infinity codes cannot be concatenated (`C98_cat_no_inf`).
* **C98** `ActFloatQuantProxyFromInjector.create_quant_tensor` passes the mantissa width as exponent width and the other way round (`C98_passthrough`, `C98_passthrough_refuted`).
* **C99** `is_ocp` looks at the widths and reserved codes but not at the exponent bias: a quantizer with another bias is exported as the standard type (`C99_bias_refuted`).
* **C99** Quantizers that do not saturate and unsigned quantizers are exported as saturating signed float8 (`C99_nonsaturating_refuted`, `C99_unsigned_refuted`).

### Statistics scaling in half precision and bfloat16

* **C100** In float16 the largest finite weight quantizes to infinity, because the scale is rounded up and threshold times scale overflows (`C100_float16_overflow_refuted`).
* **C100** The default `scaling_min_val` of 1e-10 is zero in float16: an all-zero weight (or channel) becomes NaN (`C100_float16_zero_weight_refuted`), and subnormal scales clip the weights by many steps (`C100_float16_subnormal_refuted`).
* **C100** Eight-bit weights in bfloat16 can be more than one step off (`C100_bfloat16_int8_refuted`).

### Static and learned scales and zero points

* **C102** `ConstScaling(1.0, scaling_min_val=3.0)` returns 1; its documentation says 3. The minimum also clamps the (implicit) threshold (`C102_const_min_val_refuted`).
* **C102** A scaling_min_val that is not a power of two gives scales that are not powers of two (`C102_power_of_two_min_val_refuted`).
* **C102** With a minimum, a learned scale that becomes negative turns into the minimum; without one it is mirrored (`C102_negative_value_refuted`).
* **C102** Signed full-range activations are a whole step off at max_val (`C102_signed_max_val_refuted`); power-of-two scales can clip a fifth of the declared interval (`C102_power_of_two_clips_refuted`).
* **C103** The sign of zero_point_init is ignored (`C103_sign_refuted`); an unquantized zero point need not represent zero (`C103_unquantized_zero_refuted`).
* **C103** The state dict of a module that was never called does not load with strict=True (`C103_fresh_checkpoint_refuted`), and with the full state dict flag its placeholder 0 loads as an initialised value (`C103_full_state_dict_refuted`); an optimizer step before the first call shifts the stored zero point (`C103_early_step_refuted`); with a positive statistic local-loss calls evaluate another zero point (`C103_local_loss_refuted`).

### Parts of a weight

* **C104** `quant_weight` of one output channel of a per-channel weight silently returns a tensor of the whole weight's shape; of several, it raises (`C104_output_channel_refuted`, `C104_output_channels_refuted`).
* **C104** An exception inside `quant_weight(subtensor_slice_list=...)` leaves the slices in the learned-rounding module; the next whole quantization is silently wrong (`C104_exception_refuted`).
* **C104** `_cached_sub_tensor_slice_list_modules` is not invalidated when tensor_quant is rebuilt (`C104_rebuilt_refuted`, `C104_reloaded_refuted`).
* **C104** GPTQ/GPFQ raise on depthwise transposed convolutions (`C104_transposed_groups_refuted`).

### Layers of any rank

* **C105** `quant_layer` compares the bias scale [C] with the output scale [1,C,1,1] under broadcasting, that is all pairs of channels: a convolution with per-channel weight scales never recognises a bias quantized at its output scale, its output gets a non-zero zero point, and the next layer with return_quant_tensor raises (`C105_conv_quant_bias`, `C105_chained_convolutions_refuted`).
* **C105** `isinstance(fn, torch.nn.Linear)` is never true, so the float bias of linear layers is viewed along dimension 1: a wrong or non-broadcasting zero point for three-dimensional inputs (`C105_linear_3d_refuted`), an IndexError for one-dimensional ones (`C105_linear_1d_refuted`).
* **C105** Unbatched convolutions get the scales of the output channels along the first spatial dimension (`C105_unbatched_conv_refuted`).

### Exporting a model

* **C106** No try/finally in the managers: after an export that raised, the model stays in evaluation and export mode. A retry skips prepare_for_export and writes the old metadata (`C106_retry_refuted`), an export to another target keeps the handlers of the first (`C106_other_target_refuted`), and training goes on with the metadata the handlers stored (`C106_training_after_failure_refuted`).
* **C106** A TorchScript trace that raises leaves requires_grad False everywhere; the next export that returns restores that (`C106_grads_after_failure_refuted`).
* **C106** After a failed ONNX trace the backup of cache_inference_quant_act is still set, so the next export does not override it and reuses the old cached activations even when export mode was left by hand (`C106_manual_reset_refuted`).
* **C106** `model.train(training_state)` after an export sets the flag of the root on every module: frozen batch norms go back to training (`C106_training_flag_refuted`).
* **C106** `_cached_act` is never cleared: after an export, scale(), zero_point() and bit_width() of an activation proxy return the values of the export for good (`C106_getter_after_export_refuted`).
* **C106** An activation function with disabled quantization (`QuantReLU(act_quant=None)`) gets a handler, is called through it in export mode and raises: such models cannot be exported by a manager that handles the class (`C106_disabled_activation`).

### MX block formats

* **C107** `RuntimeDynamicGroupStatsScaling.forward` divides the group maximum by the threshold and passes it to the restriction without `restrict_init_module` (log2). With the power-of-two restriction of MXActMixin the scale is 2^ceil(max/threshold): 2 for every non-zero group within the threshold, never the smallest covering power of two (`C107_act_scale`). MXInt8Act maps tensors in [-1, 1] to zero (`C107_int_act_small_zero`) and groups with a member above 1408 to zero (`C107_int8_act_large_zero`); MX float activations lose everything below 2^-9 (`C107_float_act_small_zero`).
* **C107** PowerOfTwoIntScaling uses 2^(bits-1) as the threshold while the largest code is one less: a weight that is exactly the peak power of two of its group loses a full step (`C107_int_weight_peak_refuted`).
* **C107** The minimum 1e-10 is applied after the power-of-two restriction, so a group of zeros or of tiny weights has a scale that is not a power of two (`C107_weight_scale_pow2_refuted`).

### Quantizer state, sharing and checkpoints

* **C108** `init_tensor_quant` builds new Parameters, and is run by `add_tracked_module`, `register_parameter`, `merge_bn` and every default `load_state_dict`. An optimizer built before any of these keeps the old objects: it goes on training the weights and never touches the learned scales again (`C108_optimizer_left_behind`).
* **C108** `ParameterFromStatsFromParameterScaling.state_dict` omits its value before the first call and `_load_from_state_dict` counts it as missing unless IGNORE_MISSING_KEYS: a model refuses its own checkpoint under a strict load (`C108_own_checkpoint_refuted`).
* **C108** A shared quantizer is loaded once per layer and rebuilt each time, so only the entry of the last sharing layer counts. A checkpoint of layers with separate quantizers loads strictly without complaint and gives the other layers a scale that is not theirs (`C108_unshared_into_shared_refuted`); a value present only for an earlier layer is dropped (`C108_ex_load`).
* **C108** A strict load that raises has already replaced weights and rebuilt quantizers, dropping learned scales (`C108_failed_load_atomic_refuted`).
* **C108** With REINIT_ON_STATE_DICT_LOAD off and IGNORE_MISSING_KEYS on, a checkpoint taken before the first call loads cleanly but the scale remains that of the previous weights (`C108_round_trip_keep_refuted`).

### Layers standing in for a batch norm

* **C109** `QuantScaleBias.__init__` does not pass `runtime_shape` to `ScaleBias`, so `BatchNorm1dToQuantScaleBias` views its weight as 1 x C x 1 x 1: an N x C x L input raises or is scaled along the batch and gains a dimension (`C109_bn1d_3d`), an N x C input becomes 1 x C x N x C (`C109_bn1d_2d`).
* **C109** `inner_forward_impl` calls `quant_bias.view` before testing for None: `QuantScaleBias(bias=False)` always raises. `ScaleBias.forward` tests `if self.bias` on a Parameter, which raises for two or more features (`C109_uncallable`).
* **C109** The batch norm entries are deleted from the state dict after use, so the parent class reports weight and bias as missing: a strict load of a float batch norm checkpoint raises unless IGNORE_MISSING_KEYS (`C109_bn_checkpoint_returns`).
* **C109** `self.weight.data = weight_init` skips the size check: a checkpoint over another number of channels is accepted (`C109_wrong_size_accepted_refuted`); `del state_dict[num_batches_tracked_key]` raises KeyError after the layer was changed when the key is absent, and `state_dict[bias_key]` for a batch norm without affine parameters (`C109_old_checkpoint_refuted`).

### The Hadamard classifier

* **C110** `(self.return_quant_tensor and inp.zero_point != 0.0).any()` is `False.any()` without return_quant_tensor, and `inp.value` does not exist on a plain Tensor: the layer only runs on an IntQuantTensor with return_quant_tensor set (`C110_returns`).
* **C110** `max_output_bit_width` takes the unsigned maximum and no sign bit, but the output is declared signed: unsigned inputs, and full-range signed ones of some widths, give integers outside the declared range (`C110_range_refuted`).
* **C110** `inp.value.norm(p='fro', keepdim=True)` runs over the whole tensor: logits of a sample depend on the rest of the batch (`C110_batch_independent_refuted`), though the order of its classes does not (`C110_order`).
* **C110** The state dict holds only the scale, so a checkpoint of a classifier with other widths loads strictly without complaint.

### Addition, concatenation and embedding layers

* **C111** `QuantCat.forward` calls `QuantTensor.cat`, which the base class does not define (it exists on IntQuantTensor and FloatQuantTensor): every call raises AttributeError (`C111_unusable`).
* **C111** `QuantInputOutputLayer.__init__` reads `self.act_quant`, which no mixin of the class sets (they set `input_quant` and `output_quant`): tie_input_output_quant=True always raises (`C111_unusable`); `requires_export_handler` of the same class has the same fault when the input is not quantized.
* **C111** Plain + quantized gives a plain tensor, quantized + plain a quantized one, and the scale check reads the training flag of the left operand only, so swapping the operands of QuantEltwiseAdd without input quantizer can raise (`C111_add_swapped_refuted`).
* **C111** `embedding_handler` refuses scales with more than one element even when a plain tensor is to be returned: a QuantEmbedding with per-row scales always raises (`C111_embedding_returns`).
* **C111** QuantEmbedding passes max_norm on; rows are rescaled in place after quantization, and the result is labelled with a scale it does not lie on (`C111_max_norm_refuted`).

### Group-wise quantized tensors

* **C112** `GroupwiseIntQuantTensor.__neg__` and `__abs__` use the attributes `minifloat`/`saturating`, which do not exist; `GroupwiseFloatQuantTensor` calls `float_internal_scale` with three of its four arguments. Negation, abs of a signed tensor, minifloat() and subtraction of a group-wise tensor always raise (`C112_negation_refuted`). Were the argument supplied, the float `__neg__` would negate twice and `__abs__` would take no absolute value.
* **C112** `quant_invariant_handler`, `unpack_input` and the metadata-only caches call `set(value=...)`, but the field of a group-wise tensor is called `value_`: `_replace` raises ValueError. relu, max pooling, dropout and padding fail (`C112_functions_refuted`), every quantized layer refuses a group-wise QuantTensor as its input, and the scale of a group-wise activation quantizer cannot be read through the metadata cache (`C112_layer_input_refuted`).
* **C112** A one-bit group-wise tensor in which all codes agree is called invalid, so int() raises (`C112_binary_constant_refuted`).

### FlexML target

* **C113** `FlexMLQuantAvgPool2d` quantizes 1/K with a scale of (1/K)/128 and a top code of 127, so every average is scaled by 127/128, for every kernel size (`C113_reciprocal`, `C113_pool_exact_refuted`). The first training call of a power-of-two scaling is not restricted to powers of two.
* **C113** `max_acc_bit_width` is computed from the unsigned maximum; a signed input at its lowest code overflows the declared width (`C113_pool_signed_refuted`). With ceil_mode torch divides a cut window by its own size, off the declared grid (`C113_pool_ceil_refuted`).
* **C113** `FlexMLQuantLeakyReLU` calls its input quantizer on the input and on the product with the slope. Both enter the running average, which therefore ends near half of the input range, and evaluation clips (`C113_calibration_refuted`).
* **C113** The quantizers of `FlexMLQuantLeakyReLU` are default arguments holding module instances, as does `FLEXML_QUANT_ACT_MAP`: all such layers share scales (`C113_independent_refuted`).

### Old checkpoints

* **C114** `ConvertRuntimeStatsToParameter` keeps the statistic and not the scale. For a `PARAMETER` scaling, where parameter and threshold are restricted separately, the power-of-two scale can change by a factor of two when the threshold is no power of two (`C114_same_scale_refuted`), and a scale at its minimum falls below it (`C114_minimum_refuted`). Affine rescaling is lost, leaving unexpected entries (`C114_affine_refuted`).
* **C114** If a checkpoint has both `learned_value` and `value`, the older entry overwrites the newer without notice (`C114_mixed_refuted`).
* **C114** A constant bit width loaded into a learned bit width is reflected at the minimum: 2 bits with a minimum of 4 become 6. With a power-of-two restriction the offset is taken in the wrong domain: 8 bits become 256 (`C114_bit_width_refuted`).
* **C114** `TruncQuantProxyFromInjector._load_from_state_dict` tests for the bare key `zero_hw_sentinel` but removes the prefixed one, which raises ValueError if the bare key is unexpected; and the former name of the entry is not recognised for a layer at the top level (`C114_trunc_sentinel_refuted`).

### Euclidean projection initialisation

* **C115** `apply_ep_init` caps the stored norm of every accumulator-aware layer, but projects the weights of `Conv2d` and `Linear` only. In a `Conv1d` or transposed convolution all weights of an affected channel are scaled down instead (`C115_other_layers_refuted`).
* **C115** For the zero-centred quantizer (A2Q+) it projects the uncentred weights, though both the stored norm and the bound are about centred ones; the centred weights can remain outside of the ball (`C115_zero_center_refuted`).

### Packing of weights

* **C116** `pack_int_weights` ors sign-extended int8 codes: with signed two- or four-bit weights a negative code overwrites the codes after it in the same byte (`C116_shift_signed_refuted`).
* **C116** The number of packed columns is rounded down, so codes after the last full byte are dropped (`C116_shift_dropped_refuted`). For three, five and six bits the padding is (n * bits) % 8 and not what is missing to 8: rows with one to three bits in the last byte lose their last code or raise (`C116_bits_padding_refuted`).
* **C116** `from fractions import gcd` fails from Python 3.9 on, while `setup.py` only asks for 3.8 or newer (`C116_import_refuted`).

### Seen while reading, not formalised

* `KLMinimizerThreshold` passes bin counts as logits of a categorical distribution, and its `stop = -1` leaves the last bin out of the quantized distribution.
* `MEGA` in loss/weighted_bit_width.py is 10e6, ten million.
* `GPFQ` draws the rows of convolution inputs by `np.random.choice`, which repeats rows, also for p = 1.
* `interpolate_handler` tests for mode 'nearest_exact'; torch's mode is 'nearest-exact', which therefore gives a plain tensor.
* QuantUpsample on a plain tensor raises AttributeError (`x.value`) where its assertion would have explained the reason.
* `QuantBiasMixin` ignores its cache_inference_bias argument.
* `norm_correction_mode` leaves batch norms in training mode with momentum None; `calibration_mode` captures `model.training` when constructed, not when entered.
* GPTQ and GPFQ flatten linear inputs of more than three dimensions with the sum of the trailing sizes; GPFQ unfolds convolutions with stride equal to the kernel size.
* ScaleBias.forward raises with a bias and more than one feature; QuantScaleBias drops runtime_shape.
* Merging a batch norm into a grouped transposed convolution raises.
* `module in _batch_norm` in graph/equalize.py compares a module with types and is never true.
* `QuantInputOutputLayer` reads `self.act_quant`, which it does not have, when tie_input_output_quant is set and in `requires_export_handler` (AttributeError unless the input quantizer is enabled).
* QuantMultiheadAttention renames the dimensions of the caller's query, key and value tensors in place (`rename_`) when batch_first is False; its documentation allows byte key padding masks, which raise.
* torch's MultiheadAttention keeps no `bias` or `add_bias_kv` attribute, so its conversion rebuilds the layer with bias=True and without bias_k.
* `MoveSplitBatchNormBeforeCat` reads `kwargs['dim']` of a `torch.cat` called with a positional or default dim (KeyError).
* `MergeBatchNorm.is_converged` always stops after one pass; a batch norm module called by two nodes raises KeyError when deleted.
* `act_handler` passes the lambdas of QUANT_ACT_MAP (Hardtanh bounds) without evaluating them.
* Modules built by the rewriters are created in float32 on the CPU whatever the model's dtype and device.
* `F.dropout(x)` (always on by default) becomes an `nn.Dropout` following the training flag.
* `AvgPoolToQuantDepthwiseConv` ignores ceil_mode, count_include_pad and divisor_override.
* A supported layer that never ran during calibration makes activation equalization raise KeyError.
* Nested unsupported concatenations add `_UNSUPPORTED_OP` to an integer (TypeError).
* `csrc/autograd_ste_ops.cpp` registers `tensor_clamp_ste_impl_` with the implementation that is not in place.
* A `quant_inference_mode` object cannot be entered twice.
* `QuantConvTranspose*.channelwise_separable` does `raise self.groups == ...`.
* `activation_equalization_mode.__exit__` returns True and so swallows every exception of its block.
* `MeanLearnedSigmaStd` registers `value` and reads `self.sigma` (AttributeError).
* Names of modules inserted by quantize() silently replace user modules of the same name.
* `x.view(x.size(0), -1)` as an operand makes quantize() insert a quantizer after the integer `size` node.
* The shared-bias-quantizer check compares `type[...]` objects and raises whenever several modules share it.
* `restrict_inplace_preprocess(threshold)` mutates the caller's threshold tensor.
* GPTQ's `catch_stopfwd` returns from a `finally` clause, so with return_forward_output any exception of the pass is swallowed.
* GPFQ on a layer whose weight quantizer is disabled leaves `quant_input` None (AttributeError in the next batch).
* `QuantTensor.detach_` calls `detach_` on every field, also on those that are not tensors (FloatQuantTensor's reserved codes).
* `change_weight_export` of torch/qcdq/manager.py sets `_export_weight_q_node`, where the handlers read `_export_q_node`: export_weight_q_node has no effect.
* The float activation proxy computes `input_view_impl` from the quantizer without the check for a disabled one that the integer proxy has (AttributeError).
* `BrevitasQuantLSTMCellFn.symbolic` names one attribute `output_sigmoid_narrow_range_i` where all others are `*_narrow_i`.
* `StdQCDQONNXManager.export_onnx` drops the model its parent returns (the call gives None).
* Exporting float weights with the default QCDQ options raises NotImplementedError (prepare_quantize_from_minifloat) halfway through set_export_mode.
* A bias whose scale comes from the input, in a layer the forward pass does not reach, makes the export raise.
* torch.cat of quantized tensors compares scales by value whatever the dimension; concatenating along another dimension than the channels of a per-channel scale is not checked.

## 6. Trusted base

* The Coq 8.16.1 kernel, including `vm_compute` (used for refutation witnesses and examples).
* Faithfulness of the model to the cited code, which is by reading only.
* The libraries Flocq 4.1 and Coquelicot are used for their definitions and lemmas. They add no
  axioms of their own. Their proofs rely on the standard library axioms below.
* Axioms, as listed by `Print Assumptions`: only the standard library's
  `ClassicalDedekindReals.sig_forall_dec`, `ClassicalDedekindReals.sig_not_dec`,
  `FunctionalExtensionality.functional_extensionality_dep` and `Classical_Prop.classic`.
  No axiom, parameter, or admitted proof is added. No kernel check is switched off.

Theorems by the axioms `Print Assumptions` lists:

**Closed under the global context (no axioms)** (539 theorems)

* C01: `output_on_grid`, `grid_is_reached`
* C02: `idempotent`, `requantize_wider`
* C03: `nearest`, `half_step`, `ties_to_even`, `floor`, `ceil`, `toward_zero`
* C04: `monotone`
* C05: `round_half_even`, `round_to_zero`, `dpu`, `binary_sign`, `all_modes`
* C06: `range_shape`, `symmetric_iff`, `strictly_grows`
* C07: `zero_exact`, `zero_point_must_be_in_range`
* C08: `odd_on_symmetric_range`, `full_range_refuted`
* C09: `clamp_projection`, `inplace_agrees`, `inverted_bounds`, `monotone`
* C10: `narrow_never_clips`, `full_error_le_scale`, `full_range_clips_positive_extremum`
* C101: `node_determined`, `act_int`, `act_binary`, `act_ternary`, `act_rejected`, `weight`, `decoupled`, `bias`, `bias_needs_cache`, `trunc`, `one_bit_activation_refuted`, `one_bit_weight_refuted`, `rounding_conflict_refuted`, `bias_two_calls_refuted`, `attribute_case_refuted`
* C104: `part`, `value`, `disabled`, `history`, `gpxq_column`, `output_channel_refuted`, `output_channels_refuted`, `exception_refuted`, `rebuilt_refuted`, `reloaded_refuted`, `transposed_groups_refuted`
* C105: `linear`, `linear_quant_bias`, `linear_float_bias`, `conv`, `conv_quant_bias`, `bit_width`, `zero_point_blocks`, `chained_convolutions_refuted`, `linear_3d_refuted`, `linear_1d_refuted`, `unbatched_conv_refuted`
* C106: `onnx`, `torch`, `succeeds`, `disabled_activation`, `history`, `reads`, `state_kept`, `success_resets`, `retry_refuted`, `other_target_refuted`, `training_after_failure_refuted`, `grads_after_failure_refuted`, `training_flag_refuted`, `getter_after_export_refuted`, `manual_reset_refuted`
* C107: `int_weight`, `float_weight`, `act_scale`, `int_act_small_zero`, `int8_act_large_zero`, `float_act_small_zero`, `int_weight_peak_refuted`, `weight_scale_pow2_refuted`, `act_like_weight_refuted`
* C108: `stats_scale`, `rebuild_forgets`, `preserve`, `load`, `load_keep`, `load_returns`, `round_trip`, `optimizer_left_behind`, `parameters_kept`, `weights_kept`, `own_checkpoint_refuted`, `unshared_into_shared_refuted`, `failed_load_atomic_refuted`, `round_trip_keep_refuted`
* C11: `asymmetric_covers`, `all_negative_refuted`
* C110: `matrix`, `range`
* C111: `add`, `add_no_output`, `add_commutes`, `add_unquantized`, `unusable`, `embedding_returns`, `embedding`, `add_swapped_refuted`, `max_norm_refuted`
* C112: `expand`, `int`, `int_raises`, `int_value`, `binary_constant_refuted`, `arithmetic`, `add_commutes`, `sub`, `negation_refuted`, `functions_refuted`, `functions`, `layer_input_refuted`, `cache`
* C113: `reciprocal`, `pool_value`, `pool_returns`, `pool_metadata`, `pool_exact_refuted`, `pool_codes`, `pool_signed_refuted`, `pool_ceil_refuted`, `leaky_grid`, `leaky_monotone`, `leaky_positive`, `leaky_error`, `calibration_alone`, `calibration_average`, `calibration_refuted`, `sharing`, `own_quantizers`, `independent_refuted`
* C114: `learned_value`, `sentinel`, `trunc_sentinel`, `trunc_sentinel_refuted`
* C115: `returns`, `projection`, `idempotent`, `raises`, `channels`, `channels_return`, `plain_scale`, `other_layers_refuted`, `zero_center_refuted`
* C116: `shift_lossless`, `shift_signed_refuted`, `shift_dropped_refuted`, `bits_lossless`, `bits_padding_refuted`, `bytes`, `import_refuted`, `other_widths`
* C12: `power_of_two`, `fixes_powers_of_two`, `min_val_refuted`, `min_val_lower_bound`
* C13: `binary`, `clamped_binary_same_levels`, `ternary`, `binary_idempotent`, `ternary_idempotent`, `ternary_threshold_one_refuted`
* C14: `learned_bit_width_at_least_min`, `initial_bit_width`, `init_errors`, `load_constant`, `removal_within_bounds`, `removal_monotone_refuted`
* C15: `product_fits`, `product_rejects_zero_points`, `quotient_in_range`
* C16: `sum_fits`, `mixed_sign_refuted`, `one_bit_refuted`, `tiny_scales_refuted`, `add_constant`
* C17: `negation`, `absolute_value`, `most_negative_refuted`, `zero_point_refuted`, `zero_point_abs_refuted`, `subtraction_fits`, `mixed_subtraction_refuted`
* C18: `int_view_round_trips`, `int_view_sound`, `invalid_raises`, `unsigned_32_refuted`, `one_bit_refuted`
* C19: `cat_equal_metadata`, `cat_success_implies_close`, `cat_rejects_mismatch`, `tiny_scales_refuted`, `training_refuted`
* C20: `signed_signed`, `narrow_weights`, `unsigned_unsigned`, `one_more_bit_suffices`, `linear_layer`, `conv_layer`, `unsigned_full_range_refuted`, `one_bit_refuted`, `conv_transpose_refuted`, `bias_bit`
* C21: `a2q_no_overflow`, `a2q_defined`, `zero_channel_refuted`, `round_to_nearest_refuted`
* C22: `a2q_plus_no_overflow`
* C23: `no_bias`, `quantized_bias`, `float_bias`, `zero_points_give_plain_output`, `signed_bias_refuted`, `integer_equivalence_end_to_end`
* C27: `delay_exactly_N_calls`, `binary_quant_delay`, `training_only_refuted`
* C28: `representable`, `nearest`, `idempotent`, `twice`, `monotone`, `zero`, `nonsaturating_in_range`, `nonsaturating_overflow`, `unsigned_negative_overflow_refuted`
* C29: `largest_free`, `defined`, `limit_usable`, `max_float`, `smallest`
* C30: `weight_groups`, `activation_groups`, `padding_is_minimal`, `padding_kept_refuted`, `negative_dim_refuted`
* C31: `last_dim_block_size`, `square_size_ok`, `group_size_refuted`
* C32: `export_equals_fake_quant`, `symmetric`, `within_one_step`, `odd_zero_point_tie_refuted`, `negative_zero_point_rejected`, `clip_omitted_only_if_enforced`, `unsupported_rejected`, `other_rounding_rejected`
* C33: `weights`, `bias`, `bias_other_scale`
* C34: `truncates_the_code`, `floor_is_right_shift`, `other_modes_at_most_one_over`, `round_overflow_refuted`, `zero_point_refuted`, `export_saturates`, `export_differs_refuted`, `export_zero_point_refuted`
* C35: `truncates_the_window_sum`, `sum_fits_unsigned`, `sum_fits_narrow_signed`, `signed_width_refuted`, `one_bit_width_refuted`, `output_fits`, `power_of_two_window_is_average`, `other_windows_are_rescaled_refuted`, `adaptive_divisible`, `adaptive_refuted`
* C37: `walk_terminates`
* C41: `values`, `outputs_kept`, `converges`, `listed_twice_refuted`, `shared_inner_refuted`
* C43: `split`, `ceil`, `minimal`
* C44: `replacement_preserves`, `replaces_iff_divisible`, `without_test_refuted`
* C45: `outputs`, `mirror`
* C46: `bidirectional`, `single`, `unidirectional_refuted`
* C47: `enabled_after`, `training_after`, `observer_after`, `no_more_stats`, `return_quant_tensor`, `inside`, `inside_truncation`, `inside_averages`, `disabled_refuted`, `not_enabled_refuted`, `steps_refuted`
* C48: `channel_dim`, `channel_dim_refuted`
* C49: `forward_is_fresh`, `cache_content`, `cached_weight_is_stale_refuted`
* C50: `prefix`, `postfix`, `second_noop`, `act_quant`, `collision_refuted`
* C53: `unsigned_requantizer_operands_nonneg`, `unsigned_requantizer_sum_nonneg`, `unsigned_operands_give_unsigned_requantizer`, `unknown_operand_gives_signed_requantizer`, `graph_input_quantizer_becomes_unsigned_refuted`, `placeholders_and_constants_ignored_refuted`
* C55: `int_handler`, `weight_handler`, `other_rounding_refuted`, `float_handler`, `reserved_codes_refuted`, `unscaled_masks_refuted`
* C56: `average`, `between`, `list_sums_to_average`, `repeated_passes`, `batch_size_irrelevant`, `nothing_raises`
* C58: `conv_equals_avg_pool`, `count_include_pad_refuted`, `ceil_mode_refuted`
* C61: `sample_ok`, `sample_refuted`
* C63: `written`, `transposed_lost`, `slice`, `transposed3d_refuted`
* C65: `rnn`, `lstm_partial`, `lstm_refuted`, `cifg_refuted`
* C66: `routing`, `own_checkpoint`, `eleven_layers_refuted`, `prefix_refuted`
* C71: `inference_mode_is_faithful`, `training_session_raises`, `disabled_weight`
* C72: `activation_scale_is_stale_refuted`, `weight_caching_stays_on_refuted`, `empty_session_refuted`, `training_after_empty_session_refuted`, `disabled_activation_refuted`
* C77: `aligned_addition_operands_share_scale`, `aligned_concat_operands_share_metadata`, `residual_handler_result_aligned`, `quantize_aligns_additions_and_concats`, `mixed_bit_widths_refuted`
* C78: `transpose_method_operand_never_aligns`, `shared_skip_operand_never_aligns`
* C79: `quantize_keeps_float_function`, `quantize_result_well_formed`
* C81: `abs_percentile`, `abs_percentile_defined`, `zero_rank_refuted`, `hundred_is_max`, `monotone`, `negative_percentile`, `negative_percentile_defined`, `zeroth_percentile_refuted`, `per_slice`, `interval_per_slice`
* C82: `percentile_covers`, `all_negative_refuted`
* C83: `channel_scale`, `channels_independent`, `tensor_scale`, `max_ave_scale`, `activation_channel_scale`, `channel_mismatch_raises`, `grouped_transposed_refuted`
* C84: `sink_size`, `source_size`
* C86: `norms_not_sinks`
* C88: `duplicate_preserves`, `duplicate_unshares`, `duplicate_keeps_stateful`, `duplicate_clash_refuted`, `duplicate_method_refuted`, `functional_to_module`, `functional_clash_refuted`, `remove_stochastic`, `remove_stochastic_pass`, `remove_stochastic_refuted`, `disable_last`, `disable_last_nothing`, `disable_last_refuted`, `mean_pooled`, `mean_equals_pool`, `mean_keywords_refuted`
* C89: `layerwise_quantize`, `tensors_kept`, `idempotent`, `two_names_refuted`, `untied_refuted`, `blacklist_refuted`, `root_layer_refuted`, `new_arguments`, `recurrent_bias_refuted`, `subclass_raises`, `shared_layer_raises`, `layers_replaced`, `flags_after`, `flags_refuted`
* C91: `load`, `own_checkpoint`, `uneven_raises`, `sibling_refuted`, `uneven_bias_refuted`
* C92: `sound`, `one_value`, `complete`, `built_once`, `restored`, `local`, `exception_refuted`, `twice_refuted`
* C93: `depth_first`, `let`, `diamond_refuted`, `filter`, `layer`, `layer_succeeds`, `unknown_ignored`, `one_target`, `act_layer`, `rnn_gate_acc_refuted`
* C94: `int`, `view`, `view_succeeds`, `flatten`, `transpose`, `permute`, `pixel_shuffle`, `pixel_unshuffle`, `embedding`, `embedding_raises`, `reshape_refuted`, `flatten_refuted`, `transpose_refuted`, `pixel_shuffle_refuted`
* C95: `relu`, `hardtanh`, `relu6`, `dropout_eval`, `pad`, `max_pool`, `adaptive_max_pool`, `interpolate_nearest`, `interpolate_other`, `upsample`, `relu6_refuted`, `hardtanh_refuted`, `relu_refuted`, `dropout_refuted`, `pad_refuted`, `pad_channels_refuted`, `upsample_cubic_refuted`, `upsample_zero_point_refuted`
* C96: `enter`, `groups`, `hooks`, `sequential`, `float_reference`, `stored`, `output`, `interleaved_group_refuted`, `name_collision_refuted`, `leftover_hook_refuted`, `forward_restored_refuted`
* C97: `gptq_flags`, `gpfq_flags`, `gpfq_flags_lost`, `inside`, `float_pass`, `between_batches`, `gpfq_enabled`, `gptq_enabled`, `gpfq_eval`, `gpfq_restores_refuted`, `gpfq_training_refuted`
* C98: `minifloat`, `quantizer`, `large_scale`, `neg`, `neg_unsigned`, `abs`, `abs_unsigned`, `sub`, `add`, `cat`, `cat_quantized`, `cat_checked`, `cat_no_inf`, `cat_plain`, `scale_refuted`, `neg_refuted`, `sub_refuted`, `cat_refuted`, `cat_special_refuted`, `passthrough`, `disabled`, `passthrough_refuted`
* C99: `nearest_even`, `convert_unique`, `export`, `ocp`, `fnuz`, `standard_exports`, `accepted`, `refused`, `weight`, `bias_refuted`, `nonsaturating_refuted`, `unsigned_refuted`

**`sig_forall_dec`** (15 theorems)

* C109: `bn1d_3d`, `bn1d_2d`
* C114: `bit_width_entries`
* C37: `gather_hom`
* C43: `conv1d`, `conv2d`, `conv3d_partial`, `conv3d_refuted`, `conv3d_error_refuted`
* C45: `rnn`, `lstm`, `no_state`
* C67: `rnn`, `lstm`
* C90: `extra_key`

**`classic`** (1 theorems)

* C86: `block_region`

**`sig_forall_dec`, `functional_extensionality_dep`** (95 theorems)

* C103: `quantized`, `covered`, `saturates`, `unquantized`, `unquantized_zero_refuted`, `sign_refuted`, `first_call`, `local_loss_refuted`, `statistic_used_once`, `save_load`, `save_load_fresh`, `fresh_checkpoint_refuted`, `full_state_dict_refuted`, `early_step_refuted`
* C109: `uncallable`, `scale_bias`
* C114: `mixed_refuted`
* C24: `running_average`, `outputs`, `average_bounded`, `resume_refuted`
* C25: `zero_point_lifecycle`
* C26: `zero_point_save_load`
* C37: `relu_hom`, `leaky_relu_hom`, `avg_pool_hom`, `max_pool_hom`, `mul_const_hom`, `region_values`, `layerwise`
* C38: `region`, `pass`, `pass_maxabs`, `added_constant_refuted`, `shared_module_refuted`
* C39: `blocks`, `block_size_irrelevant`, `on_grid`, `fixed_point`, `hessian_scale`, `stats_scale_refuted`
* C42: `training_flag_refuted`
* C48: `mean`, `quant_bias`, `no_bias`, `batch_sizes_refuted`, `never_raises`
* C51: `binary_gradient`, `clamped_binary_gradient`, `ternary_gradient`, `abs_gradient`
* C52: `learned_round_eval`, `stochastic_neighbours`, `stochastic_unbiased`, `module_stochastic`, `deterministic_inference`
* C57: `flags_restored`, `candidate_saved`, `grid_optimal`, `grid_no_worse_than_init`, `grid_nan_refuted`, `fib_in_bracket`, `fib_needs_two`, `fib_accuracy`, `fib_negative_init_refuted`
* C59: `step_optimal`, `total_error`
* C61: `residual`, `target_optimal`, `grid_optimal`
* C62: `gpfq_targets`
* C64: `lstm`
* C68: `bounded`
* C70: `clip`
* C73: `variants_agree`, `crossed_bounds_refuted`
* C76: `hqo_best_so_far`, `zero_point_update_exact`, `scale_update_exact`, `scale_update_shifted`, `scale_update_refuted`, `scale_repeatable`, `zero_point_repeatable_refuted`
* C84: `sink_scaling`, `source_scaling`, `source_range`, `sink_range`
* C85: `maxabs_recorded`, `range_refuted`, `self_attention`, `distinct_attention`, `cross_attention_refuted`, `value_refuted`, `range_of_batch`
* C86: `consistent_region`

**`sig_forall_dec`, `sig_not_dec`, `functional_extensionality_dep`** (58 theorems)

* C109: `bn2d`, `bn2d_exact`, `bn_checkpoint_returns`, `own_checkpoint`, `wrong_size_accepted_refuted`, `old_checkpoint_refuted`
* C110: `returns`, `bounded`, `parseval`, `order`, `codes`, `checkpoint`, `range_refuted`, `batch_independent_refuted`, `orthogonal_refuted`
* C36: `linear`, `conv`, `conv_transpose`, `chain`, `into_batch_norm`, `scale_bias`, `wrong_dim_refuted`, `shared_layer_refuted`
* C40: `hessian`, `order`, `split`
* C42: `default_eps`, `other_eps_refuted`
* C52: `learned_round_training_hard`, `learned_round_training_sigmoid`, `integer_moves_refuted`
* C59: `meaning`
* C60: `dead_harmless`, `dead_zeroed`, `positive_definite`
* C62: `targets`, `equivalent`, `damping_shrinks`
* C69: `mean`, `var`, `var_refuted`
* C90: `forward`, `unbatched`, `weights_sum`, `masked_ignored`, `causal`, `padding`, `packed_separate`, `kdim_vdim_raises`, `packed_cross_raises`, `two_float_masks_raise`, `score_quant_leaks`, `pointer_only`, `same_pointer_refuted`, `float_padding`, `float_padding_refuted`
* C91: `same_function`
* C96: `hessian`

**`sig_forall_dec`, `classic`, `functional_extensionality_dep`** (1 theorems)

* C86: `block_ranges`

**`sig_forall_dec`, `sig_not_dec`, `classic`, `functional_extensionality_dep`** (110 theorems)

* C100: `symmetric`, `asymmetric`, `symmetric_scale`, `asymmetric_scale`, `symmetric_min_val`, `asymmetric_min_val`, `float32_symmetric`, `float32_asymmetric`, `float16_overflow_refuted`, `float16_subnormal_refuted`, `float16_zero_weight_refuted`, `bfloat16_int8_refuted`
* C102: `const`, `const_init`, `const_min_val_refuted`, `const_power_of_two`, `power_of_two_min_val_refuted`, `learned_init`, `learned_shape_mismatch`, `learned_positive`, `log_domain_positive`, `negative_value_refuted`, `limits_unsigned`, `limits_signed`, `signed_max_val_refuted`, `limits_power_of_two`, `power_of_two_clips_refuted`
* C114: `statistics_to_parameter`, `old_activation`, `same_scale`, `same_scale_parameter`, `same_scale_refuted`, `minimum_refuted`, `affine_refuted`, `bit_width`, `bit_width_refuted`
* C25: `collection_phase`, `collection_outputs`, `conversion`, `learned_phase`, `evaluation_is_pure`, `no_jump_at_conversion`, `weight_decay_refuted`, `local_loss_refuted`, `power_of_two_not_applied_while_collecting_refuted`, `parameter_statistics_used_once`
* C26: `save_load_preserves_evaluation`, `loaded_module_is_learned`, `parameter_scaling_save_load`, `full_state_dict_refuted`
* C37: `factor_positive`, `negligible_channel`, `ranges_equal`, `alpha_split`, `equalize`, `added_constant_refuted`, `gated_residual_refuted`, `shared_module_refuted`
* C51: `gradient_in_range`, `gradient_above`, `gradient_below`, `input_gradient_mask`, `ste_clamp_gradient`, `gradient_is_surrogate_derivative`
* C52: `eval_follows_training_hard`, `eval_follows_training_sigmoid`, `negative_temperature_refuted`
* C54: `int_recovers_code`, `int_within_validity_tolerance`, `float_requantization_idempotent`, `float32_int_recovers_code`, `float16_int8_recovers_code`, `bfloat16_unsigned8_code_lost_refuted`, `bfloat16_int8_recovers_code`, `bfloat16_requantization_moves_refuted`
* C74: `minifloat_gradient_normal`, `minifloat_gradient_ratio`, `minifloat_gradient_subnormal`, `minifloat_gradient_saturated`, `minifloat_identity_gradient_refuted`
* C75: `initial_soft_weight`, `initial_hard_weight`
* C80: `float_code_in_range`, `float_code_monotone`, `int32_code_escapes_refuted`
* C81: `rank_in_range_double`, `rank_error_double`, `low_rank_off_by_one_refuted`
* C84: `equalize`, `lone_sink_skipped`, `channel_multiplier_refuted`, `depthwise_transposed_refuted`, `grouped_pair_refuted`, `depthwise_bias_refuted`, `ranges_balanced`
* C85: `layerwise`, `layerwise_applies`, `unbatched_refuted`, `graph`, `never_ran_raises`
* C86: `equalize_consistent`, `dropped_consumer_refuted`, `repeated_operand_refuted`, `added_operand_refuted`, `block_preserved`, `added_branch_order_refuted`
* C87: `same_axis`, `other_axis_refuted`, `activation_check`, `norm_axis_refuted`

