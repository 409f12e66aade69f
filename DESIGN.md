# Formal model of embARC MLI: design

## Target

The model follows the *reference* implementation (`*_ref.h`, `lib/src/pal/ref`), which is the
normative behaviour the DSP/VDSP variants are measured against, and the platform independent code
(helpers, checkers, data movement, pooling driver, MLI 3.0 tensors and iterators).
Both build-time rounding modes (`ROUND_MODE_UP`, `ROUND_MODE_CONVERGENT`) and both accumulator
modes (`FULL_ACCU` defined or not) are parameters of the model.

## Modelling conventions

* Fixed width integers are `Z` together with range predicates `in_bits n x` (signed n-bit). Every
  place where the C++ code can wrap is modelled with an explicit `wrap n`; every place where it
  saturates is modelled by the same sequence of comparisons as the code, and the *specification* is
  `clamp`. Undefined behaviour is a separate outcome (`None`).
* Memory is a partial map `Z -> option Z` from element index to value. Reading or writing an index
  outside of the buffer yields `None`; a theorem that a kernel run equals `Some m'` is therefore also
  a memory-safety theorem. Kernels that require non-overlapping operands get separate memories.
* Pointers are element offsets; index arithmetic is done in `Z` (no 32-bit wrap of *addresses*),
  except in the tensor checker where the 32-bit arithmetic is the point.
* Loops are folds over `Z` ranges, in the order of the code.
* Models (`theories/*Model*.v` or the first half of a file) are kept apart from specifications and
  proofs. `Properties.v` only restates the main theorems and prints their assumptions.
* A property that the faithful model violates is reported as a theorem `..._refuted` (a concrete
  accepted input for which the claim fails), next to the strongest true version under the extra
  hypothesis that rules the defect out.

## Trusted base

* Coq 8.16.1 kernel (incl. `vm_compute`), and the standard library. No axioms are added.
  `Print Assumptions` output for every theorem is in the build log of `Properties.v`;
  the section "Assumptions" below is updated from it.
* The hand translation of C++ to Gallina (each definition cites file and lines).
* Out of scope: DSP/VDSP intrinsics, cache/DMA hardware, `MLI_ASSERT`
  (treated as absent unless stated), performance estimation, the kernel factories; of the compile time
  objects and of `ExecutionInterface::Create` only what the table "Modelled code" lists (C77-C79, C81-C84).

## Plan per property

| Id | What is modelled | How it is proved |
|----|------------------|------------------|
| C01 | `asr_fx`, `asl_fx`, … parameterised by width | case split on the shift and `Z` division lemmas |
| C02 | `asr_rnd_fx` both modes | characterisation as nearest integer; saturating pre-add handled exactly |
| C03 | `add_fx`, `sub_fx`, `neg_fx`, `sat_fx`, casts | `= clamp exact` by case analysis |
| C04 | `norm_fx` as terminating loop | loop invariant; maximality of the shift |
| C05 | `bias_additive` fx8/fx16 | arithmetic; counterexample for the 32-bit narrowing |
| C06 | `define_quant_params`, `adjust_quant_params`, `result_cast` | error bound as an integer inequality (scaled by the denominator) |
| C07 | `dotprod2D/3D`, `*_additive` as folds | induction on loop ranges |
| C08 | `mac_fx` on 32/40/64 bit accumulators with wrap | induction over prefixes: wrap is identity below the bound |
| C09 | `get_relu_limits` | arithmetic + clamp lemma |
| C10 | `define_requant_params` | integer inequality |
| C11 | `count_elem_num` with 32-bit wrap | induction on shape list |
| C12 | `check_tensor_private` with 32-bit wrap | induction on dimensions; counterexample with overflow |
| C13, C14 | helper functions on tensor records | address algebra over coordinate lists |
| C15 | squash functions | address algebra |
| C16 | overlap check | interval arithmetic |
| C17, C18 | `permute_run` on memories | fold of writes at injective addresses |
| C19–C22 | `mov_basic_operation`, `mov_prepare` | as C17; counterexample for the fast path |
| C23–C25 | DMA pool state machine | invariant over all call histories |
| C26 | heap based selection | heap invariant, permutation reasoning |
| C27–C29 | pool driver (5 areas, column reuse) | per-area characterisation, covering lemma, counterexample for wide padding |
| C30–C32 | `convolution2D` | compensation lemma, dot product = padded sum |
| C33, C34 | depthwise/group | as C30 |
| C35 | transposed conv phases | phase decomposition bijection |
| C36 | inner product, checkers, ext_bias variant | dot product and zero point loops by induction, contiguity gives the flat order, value lemmas of C30/C31 |
| C37, C38 | element-wise kernels | pointwise + fold of writes |
| C39 | LUT activations with the tables of the library | closed form of the interpolation; monotonicity by cases on the table segment; the tables' facts by computation |
| C40 | softmax slices as lists of address pairs | error of the reciprocal, then of the quotient; block-wise frame lemma over the slices |
| C41 | L2 normalization; specification with real square roots | all mantissas of the inverse square root by computation, then error propagation over the reals; slices as for C40 |
| C42 | dense operation, LSTM and GRU step, loop over the sequence, checkers | memory effect of each operation, invariant of the loop relating memory and the recurrence; splitting from the list of steps; closed forms from the quantization lemmas |
| C43–C48 | conversion / 3.0 kernels | stores of loops over coordinates; interpolation as a weighted sum over all positions |
| C53 | `bias_additive` for SA8 | arithmetic |
| C54 | sum pooling | as C27 |
| C57 | the kernel of C35 with 32-bit output | phase decomposition plus compensation terms as in C55 |
| C58 | the kernel of C36 without bias, 32-bit output | as C36 |
| C59 | the element-wise loop of C37 on integers | as C37 |
| C60 | SA8 factors (normalize, divide, limit) and the operations | relative error of the factor 2^-14, rounding errors added over Q |
| C61 | scale_value and the five loops of the MLI 3.0 PReLU | as C38; 64-bit intermediate saturation shown invisible |
| C55, C56 | the kernels of C30, C33 with 32-bit output and the padding compensation terms | as C30; the compensation terms are sums over the complement of the window |
| C49–C52 | iterators, tensor views, buffers | invariants over step sequences, address algebra |
| C62–C66 | derived tilings and uses of the iterator | interval arithmetic per dimension, digits of the update index, sums of increments |
| C67 | no new code; the tables and kernels of C39, C40 | integer bounds for exp(-n/32) by repeated squaring, checked table entries, error of linear interpolation by the mean value theorem, then the kernel theorems of C39 and C40 |
| C68 | Conv2d runtime object, the input and weight iterators derived from the output iterator | invariant: after n updates all iterators stand at the same tile index; per axis the input tile with its padding sees the same part of the image as the whole; then C55 for the tile and the partition of C49 |
| C69 | DepthwiseConv2d runtime object with its batch loop | as C68 with C56 for the tile; on axes without window the input iterator equals the output iterator; the batch loop keeps the invariant that the first batch holds the result and nothing else changed |
| C70 | MaxPool2D and SumPool2D runtime objects with their batch loops and padding updates | as C68 with C54 for one batch of a tile; the slices of a batch are legal tensors; the batch loop keeps earlier batches by injectivity of addresses; the window of a tile is the window of the whole image, and sums are restricted to the tile |
| C71 | runtime objects of the element-wise operators, Clip, Rescale and Prelu, with their parameter buffers | the tiles of an iterator over any shape partition it (C49); input and output tiles coincide; one tile by C37, C44, C45, C61; an immediate value with a one-element tile directly |
| C72 | runtime object of TransposeConv2D, GetDeconvTensorIterators | along each axis the output tiles of the derived iterator cut the output; a tap of a tile meets the same input as in the whole axis; one tile by C57; partition as in C68; counterexample for overlapping tiles |
| C73 | Move, iterators with a buffer, the iterator over the elements of a tile | the offset after n steps is the address of the start of tile n (buffer of the whole tensor) or 0 (buffer of tiles), by induction over the steps; the element loop by induction over the remaining elements; counterexamples for uncut axes and other orders |
| C74 | the loop of a user program: Move, an operator, Move | invariant over the tiles: outputs of earlier tiles are in place, everything else but the local buffers unchanged; uses C73 for the moves and C45 for Clip |
| C75 | the runtime objects of MoveBroadcast, ReduceSum, ReduceMax and MatMul | the tile counts of input and output agree axis by axis, so both iterators have the same tile index; then the kernel theorems (C46, C48) per tile and the partition of the output into tiles; counterexamples by computation |
| C76 | the runtime object of Permute | the tile number is a mixed-radix numeral in the tile indices; axes that are not cut contribute nothing, so a permutation that keeps the order of the cut axes keeps the number, and both iterators are on corresponding tiles; then the kernel theorem (C17) per tile; counterexamples by computation |
| C77 | EncodeParams of Rescale and Prelu, the parameter arrays of the runtime objects, encoding of weights and zero points; memory in bytes | writing an object byte by byte and reading it back gives it; a loop of writes leaves all objects and changes nothing else; sections at the offsets of the layout; a copied section is the same array shifted; then C71 per tile; counterexamples by computation |
| C78 | the fully connected operator from compile time object to Issue on byte memory | the encoded bytes (C77) are the weights seen by the kernel; the 16-bit read of an 8-bit zero point gives it back in the stated cases; then C58; counterexamples by computation |
| C79 | GetBufferSize in 32-bit unsigned arithmetic | induction over the dimensions: the offset of the last element bounds all and is attained; the dense loop is correct modulo 2^32 |
| C80 | the float side of mli_hlp_convert_tensor, with binary32 numbers as in the library Flocq | each operation is the rounding of the exact result (Flocq), the errors of four roundings are added up; truncation after adding one half is within one half; loops as for C43; counterexamples by computation |
| C81 | ShrinkBuffer, ShrinkCfg and Next with position increments | sums of increments by induction on the calls; the elements of N tiles in sequence span no more than the ring, by cases on where the window meets the seam; writer and reader end tiles at the same position; counterexamples by computation |
| C82 | the methods that adjust an iterator configuration, and Tensor::ConvertGran | arithmetic on the six numbers of a dimension against the starts and sizes of all tiles; the converted tiling is compared with the constructor on the converted tensor; counterexamples by computation |
| C83 | EncodeParams of Clip and MatMul, the parameter part of the Clip constructor and the assertions of MatMul on its parameter buffer; memory in bytes | both bytes are written and read back (C77), then the theorems on whole tensors (C71, C75) with the values read; counterexamples by computation |
| C84 | the header of the private data, the reported sizes, the switch of ExecutionInterface::Create and the assertions of the constructors on the header | case analysis over the kernels, for arbitrary sizes of structures and objects |

## Modelled code

| Model file | Code | Not modelled |
|---|---|---|
| FxMath | private/mli_math.h, pal/ref/mli_math.h fixed point operations | float, vector types |
| Tensor | mli_hlp (count, shape, subtensor, strides), mli_prv_tensor.h squash, mli_check.cc tensor and overlap checks | element type tables other than sizes |
| Permute, Mov | permute and data movement reference kernels | per-axis parameter arrays beyond the axis index; DMA engine |
| Dma | mli_mov_api.cc handle pool and callbacks | transfers by hardware |
| ArgMax | mli_krn_argmax_ref.h | |
| Quant | mli_prv_quant_ref.h parameter derivation, bias, result cast, ReLU limits | |
| DotProd | mli_krn_dotprod_ref.h, mli_krn_reduce_sum2d_ref.h, *_additive | vector lanes (1 in the reference build) |
| Layout | mli_prv_layout.h compensations, mli_prv_tensor.h HWC getters and rotations | |
| Pool | mli_krn_pool_hwc.h, avepool, maxpool, sumpool, checkers | aliasing of input and output (rejected by the checker) |
| Conv | convolution2D, depthwise_convolution2D, group_convolution2D, their prepare/run functions and checkers | element type and pointer checks, overlap checks; 40-bit accumulators are int64_t as on the reference platform |
| TransConv | transpose_conv2d_run with mirrored weights and subtensors, mli_chk_transpose_conv2d_hwcn | as Conv |
| FullyConn | inner_product, fully_connected_prepare_and_run, quant_params_set_in_zeropoint, mli_chk_fully_connected and the quantization part of the SA8 checker | as Conv; per-axis weights zero points (MLI 3.0) are read only at index 0, as in the code |
| Eltwise | eltwise_perform_operation (FX, SA8), calc_convert_params, eltwise_innerloop, eltwise_op_basic, eltwise_prepare_and_run, mli_chk_eltwise and format tests, shape assertions of the MLI 3.0 compile time class | element type tests and null pointers are not modelled; el_params of the MLI 3.0 operators, whose frac_bits the constructors do not set, are taken as 0 |
| Relu | ReLU, leaky ReLU and PReLU (FX, SA8) with their parameter computation and loops, their checkers; scale_value and the loops of the MLI 3.0 PReLU | element type tests and null pointers are not modelled; entries of the slope shape beyond its rank are read as 0; overflow of the int difference in the MLI 3.0 PReLU wraps |
| Lut | table activations: conversion, interpolation and direct lookup of one element, the loops, sigmoid and tanh kernels (FX8, FX16, SA8), their checkers, the four tables of the library, create_lut | the table lives in a memory of its own; null pointers and element types are not modelled; a negative shift of the mask (input coarser than the table) is only reachable through the direct lookup, which does not use it |
| Softmax | softmax kernels (FX8, FX16, SA8) over slices along an axis, their checker | the tables as in Lut; the private copies of the tensors for the axis and the other dimensions are shape and stride lists; dimensions are exact (int in C++) |
| L2 | L2 normalization (FX16, SA8) over slices along an axis, its checker | as Softmax; the accumulator of the sum has 64 bits (mli_acc40_t of the reference code) |
| Ops3 | MLI 3.0 rescale (with the choice of the kernel), clip, reduce max and sum, bilinear resize, matmul | input and output buffers are separate memories except for clip; parameters are arrays; assertions left out; `int` arithmetic in resize and matmul fails on overflow |
| Iter | MLI 3.0 iterator configurations (tiling, kernel input, overlap removal, transposition, dropped axis), Reset, Next, Next(offset_inc), GetSubTensor, GetTotalCount, update index, buffer offset | positions are exact integers; buffers of several tiles (cyclic) and Next(pos_inc) are in Ring; assertions are hypotheses |
| Views | OffsetBuffer, InternalBuffer, Tensor of MLI 3.0: linking, element addresses, slice, transpose, split, combine, contiguous strides | rank equal to the maximal rank; assertions as failure; ConvertGran left out |
| Convert | mli_hlp_convert_tensor, mli_hlp_convert_tensor_safx and its checker, for integer formats | conversions from and to FP32 are in FloatConv; one memory cell per element |
| Rnn | mli_krn_rnn_dense, mli_krn_lstm_cell, mli_krn_gru_cell (fx16, fx16_fx8_fx8, sa8_sa8_sa32) and their checkers | data in one memory, weights and biases in their own; element types and the overlap test of input and scratch data of the checkers left out; int16/int8 union members as on a little endian machine |
| TileRun | MLI 3.0 runtime objects that process tiles: constructor, Update, Issue, paddings, offsets | the private data passed from the compile time object (C46); the iterators' offsets into the buffer |
| TileElt | the same for the pointwise operators: element-wise operators, Clip, Rescale, Prelu, and the parameter buffers of the last two | assertions on element types |
| TileTrans | TransposeConv2D tile by tile and GetDeconvTensorIterators | iterator and tiles of the weights zero points |
| TileMove | Move (Issue, Update), BufferIterator for whole tensors and tiles, UpdateMemstrides, GetSubTensorIterator | moves through a ring (its geometry is in Ring), skipped dimensions, Tensor::offset_ |
| TilePipe | Move within one memory, the loop over the tiles | |
| TileOps | MoveBroadcast, ReduceSum, ReduceMax and MatMul: constructors, Issue, Update, MatMul::GetIOSizesAndOffsets | element type assertions |
| TilePerm | Permute: constructor, Issue, Update, GetIOSizesAndOffsets | axes beyond the rank (size 1), the element format copied by the kernel |
| Encode | Rescale_CS::EncodeParams, Prelu_CS::EncodeParams, the constructors of Rescale and Prelu as far as the parameter arrays go, Prelu_CS::GetKernelPrivateData (room per parameter), EncodeWeightsAndZeroPts, EncodeZeroPts | byte order taken as little-endian on both sides; the deprecated overloads |
| EncodeOps | EncodeWeights, Clip_CS::EncodeParams, MatMul_CS::EncodeParams, the reported sizes, the parameters in the constructor of Clip, the parameter assertions of MatMul_prepare_and_run | one memory for sources and destination; addresses are not bounded |
| Create | GetKernelPrivateData (members kernel_id and size), GetKernelPrivateDataSize, GetRuntimeObjectSize, ExecutionInterface::Create, the first assertions of the runtime constructors | the values of sizeof are arguments; the rest of the private data is in the models of the kernels; assertions on other contents are left out |
| FcRun | GetBufferSize (three overloads), FullyConnected_CS::GetKernelPrivateData and AttachBufferOffsets, the constructor and Issue of FullyConnected | serialised form of the private data; zero points with strides; the cases in which axis and number of zero points disagree fail |
| FloatConv | mli_hlp_convert_tensor from and to FP32: convert_float_data, mli_math_float_scale | FP32 to FP32 left out; floats are IEEE 754 binary32, each operation rounded to nearest even; one memory cell per element |
| Ring | ShrinkBuffer (dimensions and reported size), ShrinkCfg, Next(pos_inc) | the loops that add increments are products; the memory strides of the new tensor and the constructors that call ShrinkCfg are left out |
| IterAdj | ApplyPrePadding, ApplyAlignsToSizes, ConvertGran (configuration, shape and strides), OverrideIncrements, set_config from a smaller rank | signed overflow wraps; the size of the buffer in Tensor::ConvertGran is left out |

## Assumptions

`Print Assumptions` reports "Closed under the global context" for every theorem in Properties.v except those whose statement uses real
numbers. These depend on the axioms of the standard library's Reals, and on nothing else:

* `ClassicalDedekindReals.sig_not_dec`
* `ClassicalDedekindReals.sig_forall_dec`
* `FunctionalExtensionality.functional_extensionality_dep`
* `Classical_Prop.classic` (only the theorems of C67 and C80)

Theorems with these axioms: `l2_fx16_correct`, `l2_sa8_correct`, and all theorems of C67 (`sigmoid_fx16_real`, `tanh_fx16_real`,
`sigmoid_fx8_real`, `tanh_fx8_real`, `sigmoid_sa8_real`, `tanh_sa8_real`, `softmax_fx16_real`, `softmax_sa8_real`, `sigmoid_entries`,
`tanh_entries`, `expneg_entries`) and of C80 (`dequantize_nearest`, `dequantize_exact`, `quantize_close`, `quantize_dequantize`,
`dequantize_tensor_correct`, `quantize_tensor_correct`, `float_roundtrip`, `quantize_range_refuted`, `quantize_nearest_refuted`,
`dequantize_scale_refuted`). No axiom of Flocq is used; it has none.

