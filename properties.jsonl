{"id": "C01", "title": "Arithmetic shifts are exact or saturate", "statement": "Shifting a fixed-point value by any signed amount gives floor(x/2^n) for right shifts and x*2^n clamped to the type range for left shifts; it never wraps and is defined for every amount, also one larger than the word.", "quantifier": "every word width, every value of that width, every signed shift amount", "why_tests_cant": "the value and shift space is far too large to enumerate for 32 and 64 bit words, and the interesting cases are at the saturation boundary of each width", "anchors": ["lib/src/pal/ref/mli_math.h: mli_math_asr_fx, mli_math_asl_fx, mli_math_asr_pos_nbits_fx, mli_math_limit_fx"]}
{"id": "C02", "title": "Rounding right shift rounds to nearest", "statement": "The rounding shift used to bring accumulators to output precision returns the integer nearest to x/2^n, with ties going up (ROUND_MODE_UP) or to even (ROUND_MODE_CONVERGENT), and the result always fits the type. Exception in mode UP: when x plus half a unit exceeds the type maximum the result is floor(x/2^n); the error is still below one unit.", "quantifier": "every word width, value, shift amount and both build-time rounding modes", "why_tests_cant": "a bias of one unit in one rounding case shows only for particular bit patterns and near the type maximum", "anchors": ["lib/src/pal/ref/mli_math.h: mli_math_asr_rnd_fx, mli_math_ashift_right_fx, mli_math_acc_ashift_fx"]}
{"id": "C03", "title": "Scalar fixed-point arithmetic saturates instead of wrapping", "statement": "Addition, subtraction, negation, absolute value, range bounding and narrowing casts return the exact mathematical result clamped to the range of the result type (narrowing casts: rounded, then clamped). The cast of 16-bit values to the 64-bit accumulator is exact only while the shifted value fits 32 bits.", "quantifier": "all pairs of values of each width; all casts between widths with any shift", "why_tests_cant": "2^64 operand pairs for 32 bit types; a wrap only shows at the extreme values", "anchors": ["lib/src/pal/ref/mli_math.h: mli_math_add_fx, mli_math_sub_fx, mli_math_neg_fx, mli_math_abs_fx, mli_math_sat_fx, mli_math_cast_fx, mli_math_acc_cast_fx, mli_math_bound_range_fx"]}
{"id": "C04", "title": "Normalization finds exactly the redundant sign bits", "statement": "The norm of a value is the largest left shift that does not overflow the type, and a normalized cast keeps the value up to one unit of its new precision with its top bit significant.", "quantifier": "every value of every width", "why_tests_cant": "one wrong bit count only shows for specific magnitudes", "anchors": ["lib/src/pal/ref/mli_math.h: mli_math_norm_fx, mli_math_norm_cast_fx"]}
{"id": "C05", "title": "FX kernels' bias is applied at accumulator precision", "statement": "For FX tensors the bias is added to the accumulator after being aligned to the accumulator's fraction (frac_in + frac_weights) exactly or, if bias has more fractional bits, rounded to nearest, with clamping only at the accumulator width. For 16 bit data this holds if the aligned bias fits 32 bits (always so if it gains at most 16 fractional bits). The stored result is the accumulator rounded to the output fraction and clamped.", "quantifier": "every bias value, accumulator value and combination of fraction bits", "why_tests_cant": "the fx16 path narrows through 32 bits only for large shifts, which ordinary test vectors never use", "anchors": ["lib/src/bricks/impl/mli_prv_quant_ref.h: bias_additive, define_quant_params, result_cast"]}
{"id": "C06", "title": "SA8 requantization error is bounded", "statement": "Requantizing an SA8 accumulator (integer multiplier and shift derived from the input, weight and output scales) produces the ideal real value acc*s_in*s_w/s_out + out_zp clamped to [-128,127], within 17/32 for any 32-bit accumulator (FULL_ACCU builds) and within 9/16 for 24-bit accumulators (reduced accumulator builds).", "quantifier": "all accumulators, scales, fractional bits and zero points accepted by the API", "why_tests_cant": "the error bound is over a real-valued function of six parameters; tests sample a few scales", "anchors": ["lib/src/bricks/impl/mli_prv_quant_ref.h: define_quant_params<s8asym>, adjust_quant_params, result_cast<s8asym>"]}
{"id": "C07", "title": "SA8 dot product decomposition is exact", "statement": "The sum computed piecewise (raw dot product, minus zero-point times sum of weights, minus weights zero-point times sum of inputs, plus product of zero-points) equals the sum of (in-in_zp)*(w-w_zp), and no intermediate result overflows while count*(128+max|zp|)^2 fits the accumulator.", "quantifier": "all lengths, all data, all zero points", "why_tests_cant": "an algebraic identity over unbounded lengths", "anchors": ["lib/src/bricks/impl/mli_prv_quant_ref.h: weights_additive, in_additive, zp_additive", "lib/src/bricks/impl/mli_krn_dotprod_ref.h: dotprod2D, dotprod3D", "lib/src/bricks/impl/mli_krn_reduce_sum2d_ref.h: reduce_sum2D"]}
{"id": "C08", "title": "Accumulators do not overflow within the guard-bit bound", "statement": "If the number of multiply-accumulates per output does not exceed 2^guard_bits, with the guard bits reported by mli_hlp_accu_guard_bits_*, no intermediate accumulator value leaves the accumulator type, whatever the data.", "quantifier": "all data, all kernel sizes within the bound, every prefix of the accumulation", "why_tests_cant": "the worst-case data and order of accumulation are one vector out of astronomically many", "anchors": ["lib/src/pal/ref/mli_math.h: mli_math_mac_fx", "lib/src/bricks/impl/mli_krn_dotprod_ref.h"]}
{"id": "C09", "title": "Fused ReLU keeps outputs inside the activation range", "statement": "A kernel configured with MLI_RELU_GEN / RELU_1 / RELU_6 stores only values whose real interpretation is within [0,inf) / [-1,1] / [0,6] and every representable value of that range is kept, i.e. the limits are the tightest representable ones. Holds for 8 and 16 bit outputs unless the output scale is so small (RELU_6: 28 or more fractional bits with a negative zero point; RELU_1: 30 or more) that the code's fallback limit is used.", "quantifier": "all output formats (fraction bits, scales, zero points) and all accumulators", "why_tests_cant": "depends on the quantization parameters chosen by the user", "anchors": ["lib/src/private/mli_prv_tensor.h: mli_prv_get_relu_limits", "lib/src/bricks/impl/mli_prv_quant_ref.h: result_cast_relu_store"]}
{"id": "C10", "title": "SA8 to SA8 requantization parameters represent the scale ratio", "statement": "The (scale, shift, offset) triple computed for moving from one asymmetric format to another represents s_in/s_out with relative error at most 2^-14 and maps in_zp to out_zp up to half a unit, provided the scaled input zero point fits 16 bits.", "quantifier": "all positive scales, all fractional bits and zero points", "why_tests_cant": "real-valued bound over the whole parameter space", "anchors": ["lib/src/bricks/impl/mli_prv_quant_ref.h: define_requant_params"]}
{"id": "C11", "title": "Element count is the product of trailing dimensions", "statement": "mli_hlp_count_elem_num(t, d) returns the product of shape[d..rank-1]; it is 0 exactly if some such dimension is 0, and the number of distinct element coordinates equals it, as long as it fits 32 bits.", "quantifier": "all ranks, shapes and start dimensions", "why_tests_cant": "the 32-bit product wraps for shapes no unit test allocates", "anchors": ["lib/src/helpers/src/mli_helpers.cc: mli_hlp_count_elem_num", "lib/src/private/mli_prv_tensor.h: mli_prv_count_elem_num_part"]}
{"id": "C12", "title": "A tensor accepted by the checker is memory safe", "statement": "If mli_chk_tensor accepts a tensor, and neither a product shape*stride nor the total size overflows the 32-bit arithmetic of the checker, then every element addressed through shape and mem_stride lies inside the declared capacity, and different coordinates address different elements.", "quantifier": "all shapes, strides and capacities (32-bit values)", "why_tests_cant": "the capacity test multiplies 32-bit quantities; failures need overflow", "anchors": ["lib/src/private/src/mli_check.cc: check_tensor_private, mli_chk_tensor", "lib/src/private/mli_check.h"]}
{"id": "C13", "title": "A sub-tensor is a window of its parent", "statement": "For a configuration accepted by the checker for which offset+size does not wrap around in 32 bits and whose rank drops only unit dimensions (the checker enforces neither), mli_hlp_create_subtensor yields a tensor whose every element is the parent's element at coordinate + offset (with dropped unit dimensions), inside the parent's data and with the same element parameters; the parent is unchanged.", "quantifier": "all ranks, shapes, strides, offsets, sizes and sub-tensor ranks", "why_tests_cant": "combinatorial in ranks and offsets; wrong addresses only show for non-contiguous parents", "anchors": ["lib/src/helpers/src/mli_helpers.cc: mli_hlp_create_subtensor", "lib/src/private/src/mli_check.cc: mli_chk_create_subtensor"]}
{"id": "C14", "title": "Pointing to a sub-tensor addresses the requested slice", "statement": "An accepted mli_hlp_point_to_subtensor with start coordinates and first_out_dim_size yields exactly the contiguous slice of the parent selected by the leading coordinates, within the parent's data. Slices that keep more than one dimension are never accepted.", "quantifier": "all shapes and coordinates", "why_tests_cant": "as above", "anchors": ["lib/src/helpers/src/mli_helpers.cc: mli_hlp_point_to_subtensor", "lib/src/private/src/mli_check.cc: mli_chk_point_to_subtensor"]}
{"id": "C15", "title": "Collapsing dimensions preserves the element sequence", "statement": "Kernels that collapse a tensor's dimensions to loop over fewer of them visit exactly the same addresses in the same order as the original coordinates.", "quantifier": "all ranks, shapes and strides", "why_tests_cant": "strides that only partly collapse are unusual in tests", "anchors": ["lib/src/private/mli_prv_tensor.h: mli_prv_squash_generic_tensor, mli_prv_squash_tensor_to_one_dim"]}
{"id": "C16", "title": "The overlap check is sound", "statement": "If two buffers whose end addresses are representable (no 32-bit wrap) pass the non-overlap check, no byte belongs to both; and disjoint non-empty buffers pass.", "quantifier": "all base addresses and sizes", "why_tests_cant": "needs all relative positions", "anchors": ["lib/src/private/src/mli_check.cc: mli_chk_tensors_not_overlapped"]}
{"id": "C17", "title": "Permute places every element by the permuted coordinates", "statement": "After mli_krn_permute, out[c] = in[c'] where c'[perm[d]] = c[d] for every output coordinate c, output shape is the permuted input shape, nothing outside the output's elements is written and the input is not modified.", "quantifier": "all ranks 1..4, shapes, strides, permutations and data", "why_tests_cant": "shapes x permutations x strides", "anchors": ["lib/src/kernels/diverse/impl/mli_krn_permute_ref.h: permute_calc, permute_run", "lib/src/private/src/mli_check.cc: mli_chk_permute"]}
{"id": "C18", "title": "Permute by a permutation and then by its inverse is the identity", "statement": "Permuting a tensor and permuting the result with the inverse order restores shape and data.", "quantifier": "all tensors and permutations", "why_tests_cant": "composition over all permutations and shapes", "anchors": ["lib/src/kernels/diverse/impl/mli_krn_permute_ref.h"]}
{"id": "C19", "title": "Data movement computes the documented function of its configuration", "statement": "After mli_mov_tensor_sync the destination element at each coordinate past dst_offset equals the source element selected by offset, subsampling, padding and permutation, or 0 where that position is outside the source; the reported shape is dst_offset + ceil(size/step). Precondition (the code does not check it): without padding the region lies inside the source, and either dst_offset is zero or the destination shape differs from the source's (otherwise the single-transfer path copies the wrong elements).", "quantifier": "all ranks, shapes, strides and configuration values accepted by the API", "why_tests_cant": "the configuration space is a product of six per-dimension vectors", "anchors": ["lib/src/move/impl/mli_mov_ref.h: mli_mov_basic_operation, mli_mov_inner_loop", "lib/src/move/mli_mov_api.cc: mli_mov_tensor_sync, mli_mov_prepare"]}
{"id": "C20", "title": "Data movement writes only the addressed destination region", "statement": "Elements of the destination buffer outside the region selected by dst_offset and the copied size are unchanged, and the source is never written (same precondition as C19).", "quantifier": "all configurations and histories of transfers", "why_tests_cant": "frame conditions need to be checked at every address", "anchors": ["lib/src/move/impl/mli_mov_ref.h", "lib/src/move/mli_mov_api.cc"]}
{"id": "C21", "title": "Slices and concatenations compose", "statement": "Copying slices of a tensor into the matching places of a destination (any number, in any order, overlapping or not) so that they cover it yields the same memory as any other covering set of slices, e.g. one whole copy; concatenating tensors with dst_offset yields the concatenation and touches nothing else.", "quantifier": "every number of slices, sizes and orders", "why_tests_cant": "arbitrary histories of transfers", "anchors": ["lib/src/move/mli_mov_api.cc: mli_mov_cfg_for_slice, mli_mov_cfg_for_concat", "lib/src/move/impl/mli_mov_ref.h"]}
{"id": "C22", "title": "The contiguous fast path agrees with the general copy", "statement": "When data movement takes the single 1D transfer path (one memcpy) and dst_offset is zero, the destination equals that of the general path for the same configuration. With a non-zero dst_offset it does not.", "quantifier": "all configurations that select the fast path", "why_tests_cant": "an equivalence between two code paths over all configurations", "anchors": ["lib/src/move/mli_mov_api.cc: mli_mov_prepare"]}
{"id": "C23", "title": "DMA channel handles never share a channel", "statement": "After one mli_mov_set_num_dma_ch and any sequence of correct calls (acquire at least one channel into a handle that is not live), the channel sets of live handles are disjoint, a released handle's channels are available again, acquire fails only if no sufficiently long free run of channels exists, and no call has undefined behaviour as long as base + pool size + requested channels - 1 does not exceed 16 (it reads past the channel table otherwise).", "quantifier": "all histories of acquire/release calls and pool sizes", "why_tests_cant": "histories are unbounded", "anchors": ["lib/src/move/mli_mov_api.cc: mli_mov_acquire_handle, mli_mov_release_handle, mli_mov_set_num_dma_ch", "lib/src/move/mli_mov_decl.h"]}
{"id": "C24", "title": "Acquired channels lie inside the pool", "statement": "Every channel handed out lies in the range given to the (only) call of mli_mov_set_num_dma_ch and inside the implementation's channel table. A second call that shrinks the pool breaks this.", "quantifier": "all histories and pool configurations", "why_tests_cant": "needs the last channels of the pool to be reached with a multi-channel request", "anchors": ["lib/src/move/mli_mov_api.cc: mli_mov_acquire_handle"]}
{"id": "C25", "title": "A transfer's callback fires exactly once, with its own cookie", "statement": "Calling start on a handle that owns channels and has registered a callback since it was acquired calls that callback exactly once with the registered cookie, calls no other callback, and the transfer is done; nothing but start calls callbacks. Handles without channels (the synchronous copy) and handles without a registered callback can call another handle's callback.", "quantifier": "all interleavings of transfers on different handles and all register/release histories", "why_tests_cant": "interleavings and histories", "anchors": ["lib/src/move/mli_mov_api.cc: mli_mov_registercallback, mli_mov_start, mli_mov_isdone, mli_mov_wait"]}
{"id": "C26", "title": "ArgMax returns the k largest elements", "statement": "mli_krn_argmax writes, for each slice along the axis, k distinct memory indices (relative to the input data pointer) of elements of the slice in order of non-increasing value such that no unreported element of the slice is larger than a reported one, and changes nothing else.", "quantifier": "all slice lengths, k, data (including ties) and strides", "why_tests_cant": "heap selection correctness is for all data orders and lengths", "anchors": ["lib/src/kernels/diverse/impl/mli_krn_argmax_ref.h"]}
{"id": "C27", "title": "Max pooling computes window maxima", "statement": "Each output of mli_krn_maxpool is the maximum of the input values inside the window clipped to the input; padding never contributes. Holds for accepted parameters whose padding is not wider than the output times the stride (see C29).", "quantifier": "all shapes, kernel sizes, strides, paddings and data", "why_tests_cant": "border handling is split in five areas with column reuse", "anchors": ["lib/src/kernels/pooling/mli_krn_pool_hwc.h", "lib/src/bricks/impl/mli_krn_reduce_max2d_ref.h"]}
{"id": "C28", "title": "Average pooling is the rounded mean of the valid window", "statement": "Each output of mli_krn_avepool is the mean of the input values inside the clipped window (padding is excluded from count and sum), converted to the output format and clipped to its range. FX: the error is at most half a unit plus 2^-13 of the mean, for all 16-bit data and for 8-bit windows of up to 1023 elements (larger 8-bit windows can overflow the accumulator). SA8: the error is at most one unit plus one percent of the scaled mean plus 1/128 of the scale ratio, when the scale ratio is at most 32 and area*(1/ratio+2) <= 60000.", "quantifier": "all window sizes and data", "why_tests_cant": "the reciprocal is approximated by a table or computed multiplier, differently per divisor", "anchors": ["lib/src/kernels/pooling/impl/mli_krn_avepool_hwc_ref.h: calc_mul, get_mul_shift_value, compute_avepool_func", "lib/src/kernels/pooling/mli_krn_pool_hwc.h"]}
{"id": "C29", "title": "Pooling touches only its tensors", "statement": "For parameters accepted by the checker and padding not wider than the output times the stride, pooling reads only input elements, writes every output element and nothing else. With wider padding, which the checker accepts, it can write outside the output buffer.", "quantifier": "all accepted shapes, kernels, strides and paddings", "why_tests_cant": "needs small inputs with wide padding", "anchors": ["lib/src/kernels/pooling/mli_krn_pool_hwc.h: mli_krn_pool_hwc_pad", "lib/src/private/src/mli_check.cc: mli_chk_maxpool_hwc"]}
{"id": "C30", "title": "FX convolution equals the mathematical convolution", "statement": "For FX data mli_krn_conv2d computes for each output the zero-padded, strided, dilated correlation of input and weights plus bias, rounded and saturated to the output format, then clipped by the activation.", "quantifier": "all shapes, strides, dilations, paddings and data for which the accumulator does not overflow", "why_tests_cant": "unbounded shapes and data", "anchors": ["lib/src/kernels/convolution/impl/mli_krn_convolution_ref.h: convolution2D, conv2d_run", "lib/src/private/mli_prv_layout.h: mli_prv_valid_area_compensations"]}
{"id": "C31", "title": "SA8 convolution treats padding as the input zero point", "statement": "For SA8 data the accumulator requantized by mli_krn_conv2d is the sum over the kernel of (in - in_zp)*w + bias where padded positions contribute zero (the checker accepts only weights with zero point 0); the output is within 1/2 + 1/32 of the real requantized value, clipped by the activation; weights scales may differ per output channel.", "quantifier": "as C30, all zero points, scales, per-tensor and per-channel weights", "why_tests_cant": "as C30", "anchors": ["lib/src/kernels/convolution/impl/mli_krn_convolution_ref.h: convolution2D", "lib/src/bricks/impl/mli_prv_quant_ref.h"]}
{"id": "C32", "title": "Convolution stays inside its tensors", "statement": "With accepted parameters, convolutions read only elements of input, weights and bias and write each output element exactly once and nothing else.", "quantifier": "all accepted parameters", "why_tests_cant": "out-of-bounds accesses at borders often go unnoticed in tests", "anchors": ["lib/src/kernels/convolution/impl/mli_krn_convolution_ref.h", "lib/src/private/mli_prv_layout.h", "lib/src/private/src/mli_check.cc: mli_chk_conv2d_hwcn"]}
{"id": "C33", "title": "Depthwise convolution is per-channel convolution", "statement": "Output channel c of mli_krn_depthwise_conv2d depends on input channel c and filter c only and equals a one-channel convolution, for FX and SA8 data.", "quantifier": "all shapes and data for which the accumulator does not overflow", "why_tests_cant": "as C30", "anchors": ["lib/src/kernels/convolution/impl/mli_krn_convolution_ref.h: depthwise_convolution2D"]}
{"id": "C34", "title": "Group convolution is convolution of channel groups", "statement": "mli_krn_group_conv2d equals independent convolutions of each group of input channels with its group of filters, for FX and SA8 data.", "quantifier": "all group counts, shapes and data for which the accumulator does not overflow", "why_tests_cant": "as C30", "anchors": ["lib/src/kernels/convolution/impl/mli_krn_group_conv2d_ref.h"]}
{"id": "C35", "title": "Transposed convolution equals its scatter definition", "statement": "For every configuration the checker accepts, each output of mli_krn_transpose_conv2d is the requantized sum of bias and all products of an input element with a kernel tap that scatter to it (input position times stride plus tap minus padding); every output is written exactly with that value, nothing else is written and nothing outside the tensors is read.", "quantifier": "all shapes, strides, paddings and data", "why_tests_cant": "the implementation splits the output in stride*stride phases; correctness is a number-theoretic identity over all strides and kernel sizes", "anchors": ["lib/src/kernels/convolution/impl/mli_krn_transpose_conv_ref.h"]}
{"id": "C36", "title": "Fully connected equals matrix-vector product", "statement": "For all tensors the checker accepts and element counts for which the accumulator cannot overflow, each output of mli_krn_fully_connected is the dot product of the flattened input (zero point removed; not removed by the ext_bias variant) with its weights column plus bias, requantized, saturated and passed through the activation; nothing else is written and nothing outside the tensors is read.", "quantifier": "all ranks, lengths, weight strides, data and formats", "why_tests_cant": "unbounded lengths", "anchors": ["lib/src/kernels/common/impl/mli_krn_fully_connected_ref.h"]}
{"id": "C37", "title": "Element-wise kernels broadcast scalars and saturate", "statement": "For all tensors the checker accepts (output of rank at least 1) and formats for which aligning the operands fits 32 bits and the final shift is at most 2n-1 (n-1 for min and max), mli_krn_eltwise_add/sub/mul/max/min for FX write to each output element the operation on the elements of the two inputs at the same coordinate, rounded to the output format and saturated; a one-element operand is used for every coordinate. Nothing else is written. This also holds in place, or whenever no output element overlaps an input element of another coordinate. (In ROUND_UP mode min and max do not let the rounding carry out of the shifted element.)", "quantifier": "all shapes, strides, data, formats and aliasings", "why_tests_cant": "data space; in-place aliasing; loop squashing over all strides", "anchors": ["lib/src/kernels/eltwise/impl/mli_krn_eltwise_ref.h", "lib/src/private/mli_prv_tensor.h: mli_prv_squash_tensor_to_one_dim, mli_prv_squash_generic_tensor", "lib/src/private/src/mli_check.cc: mli_chk_eltwise"]}
{"id": "C38", "title": "ReLU family kernels compute their function", "statement": "For all tensors the checkers accept, also in place: mli_krn_relu stores the value of the activation range nearest to each element; the fixed point leaky ReLU and PReLU copy non-negative elements and multiply negative ones by the slope (of the tensor, or of the element's index on the axis), rounded and saturated exactly (16-bit leaky ReLU up to 15, PReLU up to 30 fractional bits of the slope); the SA8 ones are within 0.54 output steps of the real activation clipped to 8 bits, for input steps of at most 2^14 output steps. PReLU needs slopes that are adjacent in memory and not overwritten by the output. Nothing but the output is written.", "quantifier": "all shapes, strides, data, formats, scales and axes", "why_tests_cant": "all data and parameter combinations; accepted layouts differ from the tested ones", "anchors": ["lib/src/kernels/transform/impl/mli_krn_relu_ref.h", "lib/src/kernels/transform/impl/mli_krn_leaky_relu_ref.h", "lib/src/kernels/transform/impl/mli_krn_prelu_ref.h", "lib/src/private/src/mli_check.cc: mli_chk_relu, mli_chk_leaky_relu, mli_chk_prelu"]}
{"id": "C39", "title": "Table activations are memory safe, interpolate and are monotone", "statement": "For all tensors the checkers accept, also in place, the sigmoid and tanh kernels read only table entries for every input and input format and write only the output. Each result lies between the two neighbouring table entries and is nearest to their linear interpolation (inputs that are not finer than the table hit entries exactly), rounded to the output format. With the tables of the library the 8-bit kernels are monotone for all inputs; the 16-bit ones are monotone inside the table and up to one unit in the last place beyond its ends. create_lut copies the table into any buffer of at least get_lut_size bytes, and fails otherwise.", "quantifier": "all inputs, input formats, tables, shapes and strides", "why_tests_cant": "index clamping must hold for every input and shift", "anchors": ["lib/src/bricks/impl/mli_prv_lut_ref.h: activation_lut_one_elem_interpolate, activation_lut_one_elem_no_interpolate, compute_activation_lut", "lib/src/private/src/mli_prv_activation_lut.cc", "lib/src/kernels/transform/mli_krn_sigm_fx.cc", "lib/src/kernels/transform/mli_krn_tanh_fx.cc"]}
{"id": "C40", "title": "Softmax outputs the normalized exponentials of each slice", "statement": "For all tensors and axes the checker accepts (one axis, or the whole tensor for a negative axis), also in place, with a table of exp and at most 65538 elements per slice, softmax never divides by zero and writes only the output. Each result is the table's value of exp at the distance of the element from the largest element of its slice, divided by the sum of these values over the slice, within half a unit of the output format plus 4 * 2^-15 (2^-8 for SA8) of the value. Hence no result is negative, larger inputs of a slice get results that are not smaller, and the results of a slice of N elements add up to one within (N + 8) / 2 units (SA8: (N + 2) / 2 units). The deprecated 8-bit fixed-point variant returns zeros.", "quantifier": "all inputs, input formats, shapes, strides and axes", "why_tests_cant": "the reciprocal and the shifts depend on the sum of all exponentials", "anchors": ["lib/src/kernels/transform/impl/mli_krn_softmax_ref.h: mli_krn_softmax_fx_run, mli_krn_softmax_sa8_run, mli_krn_softmax_run", "lib/src/private/mli_prv_tensor.h: mli_prv_get_axis_tensor, mli_prv_get_non_axis_tensor", "lib/src/private/src/mli_check.cc: mli_chk_softmax"]}
{"id": "C41", "title": "L2 normalization divides by the norm of each slice", "statement": "For all tensors the checker accepts and every axis from -1 (the whole tensor) up, also in place, with the library's inverse square root table, L2 normalization writes only the output. Each result is the input element (SA8: relative to the zero point) divided by the square root of the sum of squares over its slice, within half a unit of the output format plus 2^-12 of the value, and limited to the output range. A slice of zeros gives zeros. Signs and the order of the elements of a slice are preserved. The checker also accepts axes below -1, for which the kernel reads outside of the shape array.", "quantifier": "all inputs, input zero points, shapes, strides and axes", "why_tests_cant": "the normalization shift and the table index depend on the sum of all squares", "anchors": ["lib/src/kernels/transform/impl/mli_krn_l2_normalize_ref.h: normalize_sum, compute_normalized_sum_square, normalize_tensor, mli_krn_l2_normalize_run", "lib/src/private/src/mli_prv_activation_lut.cc: invsqrt_lut_fx16", "lib/src/private/src/mli_check.cc: mli_chk_l2_normalize"]}
{"id": "C42", "title": "Recurrent cells compute their equations over the sequence", "statement": "For every accepted call whose accumulators cannot overflow and whose buffers are apart, the LSTM and GRU cells (16-bit, 16-bit with 8-bit weights, 8-bit) write the states given by the cell equations applied step by step over the sequence, forward or backward: the cell state tensor gets the last cell state, the output all hidden states (RNN_OUT_ALL) or the last one (RNN_OUT_LAST). Nothing but output, cell state and scratch data is written. A sequence may be given in two calls: with the hidden state taken from the last output the memory is the same as after one call. rnn_dense and every gate are the sum of bias and products, each input rounded once (FX), or within a stated error of the exact affine map (8 bit). For the 8-bit GRU cell the weights need a scale per gate: with one scale for the tensor the checkers accept the call, and the result is wrong.", "quantifier": "every sequence length, state size, data, direction, output mode, activation and format within the stated limits", "why_tests_cant": "unbounded sequence lengths and data; feedback of rounding errors", "anchors": ["lib/src/kernels/common/impl/mli_krn_lstm_cell_ref.h: lstm_cell_prepare_and_run", "lib/src/kernels/common/impl/mli_krn_gru_cell_ref.h: gru_cell_prepare_and_run", "lib/src/bricks/impl/mli_krn_rnn_dense_op_ref.h: rnn_dense_op, rnn_dense_op_stacked", "lib/src/private/src/mli_check.cc: mli_chk_lstm_cell, mli_chk_gru_cell, mli_chk_rnn_dense"]}
{"id": "C43", "title": "Tensor conversion computes the value in the destination format", "statement": "mli_hlp_convert_tensor between integer formats (FX8, FX16, SA8, SA32, per tensor or per axis) writes exactly the output elements. Each is the real value of the input element in the destination format, rounded to within half a unit plus 1/16383 of its distance to the zero point (1/13000 for 32-bit outputs with a zero point) and clipped. Between 8- and 16-bit formats of equal scale it is exactly the value rounded once; same formats give a copy. 32-bit values are not copied exactly. In place is safe for the same element type; for FX8 and SA8 at the same address with different strides the checks pass and the result is wrong.", "quantifier": "all shapes, strides, axes, data and formats whose difference to the zero point fits the intermediate type", "why_tests_cant": "data space times format space; boundary of saturation", "anchors": ["lib/src/helpers/src/impl/mli_hlp_convert_tensor_ref.h: calc_convert, compute_convert_quantized_data, convert_quantized_data", "lib/src/helpers/src/mli_helpers.cc: mli_hlp_convert_tensor, mli_hlp_convert_tensor_safx", "lib/src/private/src/mli_check.cc: mli_chk_convert_tensor"]}
{"id": "C44", "title": "Rescale computes the scaled and shifted value", "statement": "For all shapes up to rank 4 and all strides, with one set of parameters or one per index on an axis, the rescale kernel writes exactly the output elements, each being saturate(round(d * scale / 2^shift) + out_bias), where d is the element minus the input bias, limited to the input type. For 8-bit input that limit can be reached. The operator selects the kernel for the element types only for 8-bit output: 8- and 16-bit input with 32-bit output runs the 32-bit input kernel, and 32-bit input and output runs nothing.", "quantifier": "all data, biases, scales, shifts, shapes, strides and axes", "why_tests_cant": "data space and shift range; the overflow shows only for extreme differences", "anchors": ["lib/src/kernels/conversion/impl/mli_krn_rescale_ref.hpp: rescale_value, compute_rescale_per_axis, compute_rescale_per_tensor, mli_krn_rescale", "lib/src/kernels/conversion/mli_krn_rescale_runtime.cc: Rescale::Issue"]}
{"id": "C45", "title": "Clip bounds every element", "statement": "The clip kernel outputs min(max(x, lo), hi) for every element, also in place, writes every element and nothing else.", "quantifier": "all shapes, strides and data", "why_tests_cant": "frame condition over strided tensors", "anchors": ["lib/src/kernels/clip/impl/mli_krn_clip_ref.hpp: clip_value, compute_clip_per_tensor, mli_krn_clip"]}
{"id": "C46", "title": "Reductions along an axis", "statement": "Reduce max outputs the largest element of the slice along the axis for every other coordinate; reduce sum outputs the sum of the slice if it fits the element type (it wraps otherwise). Only the output elements are written.", "quantifier": "all ranks up to 4, axes, shapes, strides and data", "why_tests_cant": "axis swap is a permutation argument over all shapes", "anchors": ["lib/src/kernels/conversion/impl/mli_reduce_max_ref.hpp", "lib/src/kernels/conversion/impl/mli_reduce_sum_ref.hpp"]}
{"id": "C47", "title": "Bilinear resize interpolates inside the input", "statement": "If no sampling point lies more than one pixel before the input, resize reads only input elements, does not overflow, writes only the output, and each output is the bilinear interpolation at the sampling point (limited to the input), scaled by 2^(2*shift); it lies between the bounds of the input. Sampling points further before the input, which the documented offset range permits, are read out of bounds.", "quantifier": "all sizes, strides, offsets, shifts from 1 to 12 and data", "why_tests_cant": "border clamping for all stride/offset values", "anchors": ["lib/src/kernels/conversion/impl/mli_resize_bilinear_ref.hpp: mli_resize_bilinear"]}
{"id": "C48", "title": "MatMul equals the matrix product of the dequantized operands", "statement": "out[i,j] = sum_k (a[i,k]-a_zp)*(b[k,j]-b_zp), provided the differences fit in 8 bits, the sums in 32 bits, the inner strides are 1 and the output is contiguous. The kernel checks none of these: the differences wrap, and the strides of the output are ignored.", "quantifier": "all sizes, row strides, zero points and data", "why_tests_cant": "wrap of the offset operands only for extreme data", "anchors": ["lib/src/kernels/convolution/mli_krn_matmul_ref.hpp: MatMul_prepare_and_run"]}
{"id": "C49", "title": "Tiling covers a tensor exactly", "statement": "For any tensor, tile size, iteration order and skew up to the tile size, every element of the tensor is in exactly one of the sub-tensors an iterator visits in one sweep; every sub-tensor lies inside the tensor and, with a skew below the tile size, is not empty and not larger than the tile. In one dimension the tiles start at 0, are adjacent and end at the size of the dimension.", "quantifier": "all ranks, shapes, tile sizes, orders and skews", "why_tests_cant": "ceil/modulo arithmetic for all sizes; partition argument over all coordinates", "anchors": ["include/mli_iterator.hpp: IteratorCfg", "include/mli_iterator.hpp: TensorIterator::GetSubTensor"]}
{"id": "C50", "title": "Iterating visits every tile once, in order, and returns to the start", "statement": "Starting from Reset, repeated Next visits every combination of tile indices exactly once, the first iteration dimension fastest, reports done exactly at the last one and ends back at position zero; the number of tiles is that of GetTotalCount. The buffer offset is that of the first element of the tile if the axes are iterated in their order, the strides are nested and every axis has size 1 or several tiles; for another order, or an axis with a single tile, it is wrong.", "quantifier": "all ranks, counts, orders and numbers of steps", "why_tests_cant": "unbounded histories", "anchors": ["include/mli_iterator.hpp: TensorIterator::Next, TensorIterator::Reset, TensorIterator::GetTotalCount, BufferIterator::BufferIterator, BufferIterator::Next, BufferIterator::EndOfDim"]}
{"id": "C51", "title": "Tensor views address the right elements", "statement": "The element of a slice at c is the element of the original at pos + c; of a transpose, the element whose coordinates are permuted back; of a split axis, position i of chunk j is position j * (size / chunks) + i; of two axes combined in reverse order, position x is position x mod size of the first and x / size of the second; combining a split axis gives the original. A contiguous tensor shows its elements once each in row-major order. A slice by size only forgets the offset of the original, and combine in row order keeps the wrong stride.", "quantifier": "all ranks, shapes, strides and parameters", "why_tests_cant": "combinatorial in shapes and strides", "anchors": ["include/mli_types.hpp: Tensor::Tensor, Tensor::get_offset, Tensor::slice, Tensor::transpose, Tensor::split, Tensor::combine"]}
{"id": "C52", "title": "Relocating an offset buffer preserves its content window", "statement": "Converting an OffsetBuffer into an InternalBuffer with a base-address table gives the address base[mem_id]+offset and the same size and element size; a buffer from a relative offset is the rest of the window. Reading or writing a tensor at a coordinate accesses the bytes of exactly that element, inside the window if the element is; the elements of a contiguous tensor that fits its buffer are all inside and share no bytes.", "quantifier": "all base tables, offsets, sizes, tensors and coordinates", "why_tests_cant": "frame over all addresses", "anchors": ["include/mli_types.hpp: OffsetBuffer, InternalBuffer, Tensor::read, Tensor::write"]}
{"id": "C53", "title": "SA8 kernels' bias is applied exactly or with 15 significant bits", "statement": "An SA8 kernel adds its 32-bit bias to the accumulator exactly (clamped at 32 bits) in FULL_ACCU builds; in reduced accumulator builds the bias is first rounded down with a relative error of at most 2^-14, and 16-bit biases stay exact.", "quantifier": "all biases and accumulator values", "why_tests_cant": "the truncation only shows for large biases and is data dependent", "anchors": ["lib/src/bricks/impl/mli_prv_quant_ref.h: bias_additive<int32_t, mli_acc32_t, s8asym>"]}
{"id": "C54", "title": "Sum pooling is the exact sum of the valid window", "statement": "Each output of the MLI 3.0 sum pooling kernel is the exact sum of the 8-bit input values inside the window clipped to the input; it never overflows 32 bits. Holds under the padding condition of C29.", "quantifier": "all shapes, kernel sizes, strides, paddings and data", "why_tests_cant": "accumulator overflow and border handling for all window sizes", "anchors": ["lib/src/kernels/pooling/mli_krn_pool_hwc.h: mli_krn_pool_hwc_nopad, mli_krn_sumpool_hwc", "lib/src/pal/ref/mli_prv_dsp.h"]}
{"id": "C55", "title": "MLI 3.0 convolution computes the exact integer sum with zero-point padding", "statement": "Each output of the MLI 3.0 quantized convolution (8-bit input and weights, 32-bit output) is the exact sum of input times weight over the whole kernel window, where taps outside the input use the input zero point; nothing but the output is written. Holds for weights with zero point 0 and windows small enough for 32-bit sums.", "quantifier": "all shapes, strides, paddings, dilations, zero points and data", "why_tests_cant": "padding compensation must be exact for every window position", "anchors": ["lib/src/kernels/convolution/impl/mli_krn_convolution_ref.h: convolution2D", "lib/src/bricks/impl/mli_prv_quant_ref.h: int_quant"]}
{"id": "C56", "title": "MLI 3.0 depthwise convolution computes the exact integer sum with zero points", "statement": "Each output of the MLI 3.0 quantized depthwise convolution is the exact sum of input times (weight - weights zero point) over the whole kernel window, where taps outside the input use the input zero point; nothing but the output is written.", "quantifier": "all shapes, strides, paddings, dilations, zero points and data", "why_tests_cant": "padding compensation must be exact for every window position", "anchors": ["lib/src/kernels/convolution/impl/mli_krn_convolution_ref.h: depthwise_convolution2D", "lib/src/bricks/impl/mli_prv_quant_ref.h: int_quant"]}
{"id": "C57", "title": "MLI 3.0 transposed convolution computes the exact integer sum with zero-point filling", "statement": "Each output of the MLI 3.0 quantized transposed convolution is the exact 32-bit sum over all kernel taps of weight times the input element that the tap meets, or times the input zero point if it meets a gap or the border; nothing but the output is written. Holds for weights with zero point 0.", "quantifier": "all shapes, strides, paddings, zero points and data", "why_tests_cant": "the compensation of the gaps must be exact in every phase for every stride and kernel size", "anchors": ["lib/src/kernels/convolution/impl/mli_krn_transpose_conv_ref.h: transpose_conv2d_run", "lib/src/bricks/impl/mli_prv_quant_ref.h: int_quant"]}
{"id": "C58", "title": "MLI 3.0 fully connected computes exact integer sums", "statement": "The MLI 3.0 fully connected operator with one input row writes for each output channel the exact 32-bit integer sum of x * (w - weights zero point), whatever the input zero point; nothing else is written and nothing outside the tensors is read.", "quantifier": "all channel counts up to the accumulator bound, strides of the weights, zero points and data", "why_tests_cant": "unbounded lengths", "anchors": ["lib/src/kernels/common/impl/mli_krn_fully_connected_ref.h", "lib/src/kernels/common/impl/mli_krn_fully_connected_runtime.cc: FullyConnected::Issue"]}
{"id": "C59", "title": "MLI 3.0 element-wise operators compute saturated integer results", "statement": "The MLI 3.0 add, sub, max and min operators on 8, 16 or 32-bit integers write to each output element the saturated integer result of the elements at the same coordinate (a one-element operand is used for every coordinate), and mul of 8 or 16-bit integers writes the exact 32-bit product; nothing else is written. Operands that are neither scalars nor of the shape of the output are not supported.", "quantifier": "all shapes, strides, data and aliasings", "why_tests_cant": "data space; in-place aliasing; loop squashing over all strides", "anchors": ["lib/src/kernels/eltwise/impl/mli_krn_eltwise_ref.h", "lib/src/kernels/eltwise/mli_krn_add_runtime.cc", "lib/src/kernels/eltwise/mli_krn_add_compiler.cc"]}
{"id": "C60", "title": "SA8 element-wise kernels compute the real operation within a rounding error", "statement": "For all SA8 tensors and quantization parameters the checkers accept (positive scales, input steps of at most 2^22 output steps), each output of mli_krn_eltwise_add/sub/mul/max/min_sa8 is the real operation on the real values of its two operands, expressed in the output quantization and clipped to 8 bits, with an error of at most 0.55 output steps for mul, max and min, and of at most one step plus 2^-14 of the operands for add and sub; nothing but the output is written, also in place.", "quantifier": "all shapes, strides, data, scales and zero points", "why_tests_cant": "the factors are normalized, truncated and limited differently for every pair of scales; 2^16 operand pairs for each", "anchors": ["lib/src/kernels/eltwise/impl/mli_krn_eltwise_ref.h: calc_convert_params, eltwise_perform_operation"]}
{"id": "C61", "title": "The MLI 3.0 PReLU operator is exact", "statement": "Each output of the Prelu operator is (x - bias_in) * scale * 2^-shift + bias_out, rounded and saturated to the output type, with the positive or negative scale and shift chosen by the sign of x - bias_in and the parameters taken at the element's position on the axis (or the single ones), provided x - bias_in fits 32 bits; only output elements are written.", "quantifier": "all tensors, strides, parameters, shifts and axes", "why_tests_cant": "2^32 inputs times all parameter values; intermediate 64-bit saturations must never show", "anchors": ["lib/src/kernels/transform/impl/mli_krn_prelu_ref.h: scale_value, compute_prelu_per_axis, compute_prelu_per_tensor", "lib/src/kernels/transform/mli_krn_prelu_runtime.cc"]}
{"id": "C62", "title": "Input tiles contain the receptive fields of the output tiles", "statement": "For every output tiling and every input size, effective kernel size, stride and padding (with the padding not larger than the first output tile times the stride, and the last tile starting inside the input), the tile of the input iterator with the same index lies inside the input and contains every input position that the kernel window of an output of that tile covers.", "quantifier": "all sizes, tile sizes, kernel sizes, strides and paddings", "why_tests_cant": "interaction of clipping, padding and stride at every tile position", "anchors": ["include/mli_iterator.hpp: IteratorCfg (constructor from an output configuration), TensorIterator::GetSubTensor"]}
{"id": "C63", "title": "Removing the overlap of adjacent input tiles loses and repeats no element", "statement": "After RemoveOverlapAdjacentTiles the tiles of the first iteration dimension cut the input into adjacent pieces, so that every element is transferred exactly once, if the first tile is not limited by the input and the window of the output before the last tile ends inside the input. If it does not, the size of the last tile wraps to almost 2^32.", "quantifier": "all sizes, tile sizes, kernel sizes, strides and paddings", "why_tests_cant": "failure only for certain combinations of tile size and post-padding", "anchors": ["include/mli_iterator.hpp: IteratorCfg::RemoveOverlapAdjacentTiles"]}
{"id": "C64", "title": "The update index identifies the sizes of a tile", "statement": "Two tiles of an iterator have the same update index exactly if their sub-tensors have the same size in every dimension, for plain tilings; for input tilings limited by the end of the input two different sizes can share an index. The indices that occur have no gaps: every value up to the largest possible one is taken by some tile.", "quantifier": "all configurations and pairs of tiles", "why_tests_cant": "mixed-radix code over all dimensions and tile positions", "anchors": ["include/mli_iterator.hpp: IteratorCfg::CalcDiffCode, TensorIterator::get_update_idx"]}
{"id": "C65", "title": "Offset increments lead from tile to tile", "statement": "The sum of the increments returned by Next(offset_inc) is always the offset of the first element of the current tile, for every iteration order, and the end is reported at the last tile. If the last iteration dimension is skipped the end is never reported.", "quantifier": "all ranks, shapes, tile sizes, orders, skews and numbers of steps", "why_tests_cant": "unbounded histories", "anchors": ["include/mli_iterator.hpp: TensorIterator::Next(int32_t&)"]}
{"id": "C66", "title": "Derived iterator configurations", "statement": "Transposing a configuration with a permutation of the axes that is its own inverse gives the tiles of the transposed tensor; with other permutations it does not. Dropping an axis of an unskewed configuration keeps the tiles of the other axes; of a skewed one it exchanges two increments and the tiles overlap.", "quantifier": "all configurations, permutations and tile positions", "why_tests_cant": "fails only for cyclic permutations or skew", "anchors": ["include/mli_iterator.hpp: IteratorCfg::transpose_order, IteratorCfg (constructor dropping an axis)"]}
{"id": "C67", "title": "Activations and softmax approximate the real functions", "statement": "For every accepted tensor whose input has at most 34 (sigmoid) or 35 (tanh, softmax) fractional bits, each output of the kernels, read as a real number, is the real function of the real input within a fixed error. In units of the last place: sigmoid 2.6 and tanh 4.125 (16-bit fixed point); 0.511 and 0.517 (8-bit fixed point), 0.529 and 0.524 (SA8) from the value limited to the largest representable one; softmax over n elements 15 + 1.05 n (16-bit fixed point), 1.62 + n/120 (SA8). Each entry of the sigmoid and tanh tables is the correctly rounded function value, each entry of the exponential table for a negative argument too.", "quantifier": "all inputs, shapes, strides, input formats and rounding modes", "why_tests_cant": "the error must be bounded for all 2^16 inputs in every format and for all vectors of softmax inputs, against functions over the reals", "anchors": ["lib/src/private/src/mli_prv_activation_lut.cc", "lib/src/bricks/impl/mli_prv_lut_ref.h: compute_activation_lut", "lib/src/kernels/transform/mli_krn_sigm_fx.cc", "lib/src/kernels/transform/mli_krn_tanh_fx.cc", "lib/src/kernels/transform/mli_krn_softmax_fx.cc"]}
{"id": "C68", "title": "Tiled convolution equals the whole convolution", "statement": "For all image, kernel and output sizes, strides, dilations and paddings that the convolution accepts, and all tile sizes up to the output size whose first tile contains the leading padding: when the tiles of an MLI 3.0 Conv2d are processed one after another with Issue and Update, each with the parts of input and weights at the reported offsets in its local buffers, every Issue succeeds and writes, in the output tile, the values of the convolution of the whole tensors; every output element belongs to exactly one tile; the values equal those of one untiled call. Local buffers with room for the whole tensors suffice for every tile. Axes must be iterated in their own order: with another order the paddings are taken from the wrong axis (refuted). The last input tile may be larger than the first and the regular ones (refuted that it is not).", "quantifier": "all tensor sizes, kernel sizes, strides, dilations, paddings, tile sizes, values, zero points and tiles", "why_tests_cant": "each combination of sizes needs its own run and errors appear only at tile borders; there are unboundedly many size combinations", "anchors": ["lib/src/kernels/convolution/mli_krn_conv2d_runtime.cc: Conv2d::Conv2d, Issue, Update, UpdateTilePaddings, GetIOSizesAndOffsets", "include/mli_iterator.hpp: TensorIterator, IteratorCfg", "lib/src/kernels/convolution/impl/mli_krn_convolution_ref.h: conv2d_prepare_and_run"]}
{"id": "C69", "title": "Tiled depthwise convolution equals the whole depthwise convolution", "statement": "For all image, kernel and output sizes, strides, dilations and paddings that the depthwise convolution accepts, any number of batches, and all tile sizes with one batch per tile up to the output size whose first tile contains the leading padding: when the tiles of an MLI 3.0 DepthwiseConv2d are processed one after another with Issue and Update, each with the parts of input and weights at the reported offsets in its local buffers, every Issue succeeds and every output element of every batch belongs to exactly one tile and receives there the value of the depthwise convolution of the whole tensors, including the weights zero point. Buffers with room for one batch of the whole tensors suffice for every tile. With several batches in a tile exactly the first one is computed and no other memory is written, so the remaining batches stay uncomputed although the interface accepts such tiles (refuted that they are computed).", "quantifier": "all numbers of batches, tensor sizes, kernel sizes, strides, dilations, paddings, tile sizes, values, zero points and tiles", "why_tests_cant": "errors appear only at tile borders or with several batches in a tile; there are unboundedly many size combinations", "anchors": ["lib/src/kernels/convolution/mli_krn_depthwise_conv2d_runtime.cc: DepthwiseConv2d::DepthwiseConv2d, Issue, Update, UpdateTilePaddings, GetIOSizesAndOffsets", "include/mli_iterator.hpp: TensorIterator, IteratorCfg", "lib/src/private/mli_prv_tensor.h: mli_prv_get_conv2d_weights_tensor_hwc"]}
{"id": "C70", "title": "Tiled maximum and sum pooling equal the whole pooling", "statement": "For all image, window and output sizes, strides and paddings that the pooling kernels accept, any number of batches, and all tile sizes (several batches per tile included) whose first tile contains the leading padding and whose last tile contains the trailing padding: when the tiles of an MLI 3.0 MaxPool2D or SumPool2D are processed one after another with Issue and Update, each with the part of the input at the reported offsets in its local buffer, every Issue succeeds, writes nothing but its output tile, and every output element of every batch belongs to exactly one tile and receives there the maximum (the sum) over the part of its window that lies inside the whole image. Buffers with room for a tile's batches of whole images and for one output tile suffice for every tile. For sum pooling the leading padding must be smaller than a tile when there are several: if it is exactly one tile, the second tile is padded again and its sums are wrong (refuted). If the trailing padding is wider than the last tile, the kernel writes in front of its output buffer although it accepts and correctly computes the whole image (refuted).", "quantifier": "all numbers of batches, tensor sizes, window sizes, strides, paddings, tile sizes, values and tiles", "why_tests_cant": "errors appear only at tile borders, for particular relations between padding and tile size; there are unboundedly many size combinations", "anchors": ["lib/src/kernels/pooling/mli_krn_maxpool_runtime.cc: MaxPool2D::MaxPool2D, Issue, Update, UpdateTilePaddings, GetIOSizesAndOffsets", "lib/src/kernels/pooling/mli_krn_sumpool_runtime.cc: SumPool2D::SumPool2D, Issue, Update, UpdateTilePaddings, GetIOSizesAndOffsets", "include/mli_iterator.hpp: TensorIterator, IteratorCfg"]}
{"id": "C71", "title": "Tiled pointwise operators equal the whole operators", "statement": "For all tensor shapes (rank 1 to 4), all tile sizes and all buffer strides: when the tiles of an MLI 3.0 Add, Sub, Mul, Min, Max, Clip, Rescale or Prelu are processed one after another with Issue and Update, each with the part of the inputs at the reported offsets in its local buffer, every Issue succeeds, writes nothing but its output tile, and every output element belongs to exactly one tile and receives there the result for the whole tensors: the exact result of the operation, saturated, where an operand with a single element is combined with every element of the other one; the clipped element; the rescaled element; the element scaled by the slope of its sign. Per-axis parameters are those of the element's position in the whole tensor; the parameter size that Rescale and Prelu report for a tile is the size of the tile along the axis, fits the local parameter arrays, and the reported offsets are those at which the arrays are read. Buffers with room for one full tile suffice for every tile.", "quantifier": "all shapes, tile sizes, strides, values, parameters and tiles", "why_tests_cant": "errors appear only in the tiles at the upper ends of the axes and for particular relations of shape and tile size; there are unboundedly many", "anchors": ["lib/src/kernels/eltwise/mli_krn_add_runtime.cc: Add::Add, Issue, Update, GetIOSizesAndOffsets (also sub, mul, min, max)", "lib/src/kernels/clip/mli_krn_clip_runtime.cc: Clip::Clip, Issue, Update", "lib/src/kernels/conversion/mli_krn_rescale_runtime.cc: Rescale::Rescale, Issue, Update, GetIOSizesAndOffsets", "lib/src/kernels/transform/mli_krn_prelu_runtime.cc: Prelu::Prelu, Issue, Update, GetIOSizesAndOffsets", "include/mli_service_functions.hpp: ReconstructTensor", "include/mli_iterator.hpp: TensorIterator, IteratorCfg"]}
{"id": "C72", "title": "Tiled transposed convolution equals the whole one where kernel and stride agree", "statement": "For all sizes, all input tile sizes and all buffer strides: when along each tiled axis the kernel is as long as the stride (along any other axis there is one tile: because it has the size of the axis, or because the library does not tile an axis whose last tile is smaller than the kernel) and the tiles of an MLI 3.0 TransposeConv2D with iterators from GetDeconvTensorIterators are processed one after another with Issue and Update, each with the input and weights at the reported offsets in its local buffers, every Issue succeeds, writes nothing but its output tile, and every output belongs to exactly one tile and receives there the value of the transposed convolution of the whole tensors, the same as that of one call for the whole tensors. Buffers with room for the whole tensors suffice for every tile. Where the kernel is longer than the stride the output tiles overlap and hold only part of the sum.", "quantifier": "all sizes, strides, paddings, tile sizes, buffer strides, values and tiles", "why_tests_cant": "the result depends on the relation of kernel, stride, padding, axis and tile size; the tests compare a few shapes with one tile size", "anchors": ["lib/src/kernels/convolution/mli_krn_transpose_conv_runtime.cc: TransposeConv2D::TransposeConv2D, Issue, Update, UpdateTilePaddings, GetIOSizesAndOffsets", "lib/src/helpers/src/mli_helpers_30.cc: GetDeconvTensorIterators", "include/mli_iterator.hpp: IteratorCfg, SetCount, DisableTiling, OverrideIncrements, SetZeroIncrements"]}
{"id": "C73", "title": "Move copies exactly the current tile", "statement": "For all tensors, strides and tilings in the order of the axes: with the MLI 3.0 Move, each side a buffer of the whole tensor or a buffer of one tile, after any number of Updates an Issue copies every element of the current tile, at the position and with the size its iterator reports, from its place in the source to its place in the destination and changes nothing else. Moving in, the tile buffer then holds that tile; moving all tiles out of tile buffers or from one whole buffer to another, the destination holds every element of the tensor and nothing else changes. For a buffer of the whole tensor every axis must be cut, of size 1, or have a last increment that completes it: otherwise, and for other orders of the axes, other elements are moved.", "quantifier": "all ranks, shapes, strides, tile sizes, values and numbers of Updates", "why_tests_cant": "the offset of a tile is accumulated over all earlier steps of the iteration; the tests move a few tensors with a few tilings", "anchors": ["lib/src/move/mli_mov_runtime.cc: Move::Move, Issue, Update", "lib/src/move/mli_mov_compiler.cc: Move_CS", "include/mli_iterator.hpp: BufferIterator, TensorIterator::Next, GetSubTensorIterator, UpdateMemstrides, SetCount"]}
{"id": "C74", "title": "Moving in, processing and moving out all tiles computes the whole operator", "statement": "For all shapes, tilings and strides: let a program, for each tile, move the tile of the input into a local buffer, run an operator on it that leaves the tile of the result in a local buffer and writes nothing else, move that into the output, and Update all objects, all in one memory where input and output are apart from the local buffers and from each other. Then every step succeeds and at the end the output holds every element of the result, and nothing but the output and the local buffers has changed. This holds for Clip, also with one local buffer for both.", "quantifier": "all ranks, shapes, strides, tile sizes and values, all operators with the stated contract", "why_tests_cant": "the state of three iterators and of the memory evolves over all tiles; the tests run a few sizes", "anchors": ["lib/src/move/mli_mov_runtime.cc: Move::Issue, Update", "lib/src/kernels/clip/mli_krn_clip_runtime.cc: Clip::Issue, Update", "include/mli_iterator.hpp: TensorIterator, BufferIterator"]}
{"id": "C75", "title": "Tile-by-tile broadcast, reduction and matrix product compute the whole result where tiles are cut suitably", "statement": "For all shapes, tile sizes, strides and values: MoveBroadcast run tile by tile copies to every position of the destination the source element at that position with 0 on the source's axes of size 1, provided axes that are broadcast are not cut; ReduceSum run tile by tile gives all sums along an axis that is not cut, if they fit into the element type; every Issue of ReduceMax after the first Update (or of an uncut tensor) gives the maxima of its tile; MatMul run on groups of rows of the left matrix gives the whole product with the zero points taken off. Every result element is in exactly one tile and nothing outside the output tile changes. Not so otherwise: with a cut broadcast axis source and destination get out of step; the first Issue of ReduceMax on a cut tensor works on the shape of the whole tensor, outside of the tile buffers; MatMul reports the left input's offsets for the right input; and column tiles of MatMul whose last tile is narrower are written to wrong places.", "quantifier": "all ranks up to 4, shapes, strides, tile sizes and values, every tile", "why_tests_cant": "tiles of all sizes at all positions; the tests use a few shapes with buffers larger than a tile, and overwrite the wrong offsets", "anchors": ["lib/src/move/mli_move_broadcast_runtime.cc: MoveBroadcast::Issue, MoveBroadcastRun, Update", "lib/src/kernels/conversion/mli_reduce_sum_runtime.cc: ReduceSum::Issue, Update", "lib/src/kernels/conversion/mli_reduce_max_runtime.cc: ReduceMax::ReduceMax, Issue, Update", "lib/src/kernels/convolution/mli_krn_matmul_runtime.cc: MatMul::Issue, Update, GetIOSizesAndOffsets"]}
{"id": "C76", "title": "Tile-by-tile permutation of axes computes the whole permuted tensor where cut axes keep their order", "statement": "For all shapes, tile sizes, strides, permutations and values of elements of 8 or 32 bits: if the output's shape and tile size are the permuted ones of the input, and the axes that are cut into several tiles come in the output in the same order as in the input, then running Permute tile by tile gives every element of the whole permuted tensor, each in exactly one tile, at the reported offsets; nothing outside the output tile changes. Not so otherwise: if two cut axes swap their order (a transposed matrix cut along both axes), input and output tiles get out of step and elements end up at wrong places; walking the output in the permuted order instead makes the reported output offsets wrong; and elements of 16 bits, which the constructor accepts, cannot be issued.", "quantifier": "all ranks up to 4, shapes, strides, tile sizes, permutations and values, every tile", "why_tests_cant": "whether the two iterators stay in step depends on which axes are cut and how they are permuted; the tests use a few shapes", "anchors": ["lib/src/kernels/diverse/mli_krn_permute_runtime.cc: Permute::Permute, Issue, Update, GetIOSizesAndOffsets", "include/mli_iterator.hpp: TensorIterator::Next, GetSubTensor, get_pos"]}
{"id": "C77", "title": "Encoded parameters are read back as given, also tile by tile", "statement": "For all numbers of channels and all parameter values in the ranges of their types: encoding the parameters of Rescale or Prelu succeeds in a buffer of the reported size, changes only bytes of the buffer, and a runtime object for all channels reads exactly the given parameters. When the user copies for every tile the pieces of each section to the offsets that the runtime object reports, the copies fit without overlap and all Issues together give the result in which every element is processed with the parameters of its own channel (Rescale: any axis or whole tensor; Prelu: last axis). EncodeWeights copies every 8-bit weight of a tensor at the start of its buffer to the same place of a separate destination of the same size, and refuses other element sizes (not so for a slice inside a buffer: memory behind the buffer is read). Weights and zero points are encoded one behind the other, unchanged; zero points are accepted exactly if there is one for the tensor or one per channel, and the quantization axis follows. Not so: the encoded buffer itself is no valid local buffer for smaller tiles, nor for Prelu with whole-tensor parameters; Prelu along another axis than the last reports overlapping sections; Rescale's arrays are misaligned for odd numbers of channels of 8-bit input or 32-bit output; and the size reported for encoded weights is refused when there are zero points.", "quantifier": "all channel counts, parameter values, tile sizes, axes, buffer addresses", "why_tests_cant": "the byte layout has to agree for every number of channels and tile size, and errors show only with unequal neighbouring values", "anchors": ["lib/src/kernels/conversion/mli_krn_rescale_compiler.cc: Rescale_CS::EncodeParams, GetEncodedParamsSize", "lib/src/kernels/conversion/mli_krn_rescale_runtime.cc: Rescale::Rescale, GetIOSizesAndOffsets", "lib/src/kernels/transform/mli_krn_prelu_compiler.cc: Prelu_CS::EncodeParams, GetKernelPrivateData", "lib/src/kernels/transform/mli_krn_prelu_runtime.cc: Prelu::Prelu", "include/mli_service_functions.hpp: EncodeWeights, EncodeWeightsAndZeroPts, EncodeZeroPts"]}
{"id": "C78", "title": "A fully connected layer works from its encoded weights", "statement": "For all channel counts, weights and 8-bit inputs whose sums fit 32 bits, and one batch: encoding weights and zero points, copying the encoded bytes to a local buffer with two bytes of room per zero point, creating the runtime object and issuing it gives for every output channel exactly the sum over the input channels of input times (weight minus zero point), and changes no other memory. The zero points must be a single one from 0 to 127, followed by a zero byte, or zero for every channel. Otherwise not: the encoder writes 8-bit zero points and the runtime object reads a 16-bit one, so that -1 for the tensor acts as 255 and [1; 1] per channel as 257, and a local buffer of exactly the encoded size is refused.", "quantifier": "all channel counts, weights, inputs, strides, buffer addresses and zero points in the stated range", "why_tests_cant": "a test with one set of zero points (usually zero) does not show which bytes the runtime reads; the sum must be exact for every input", "anchors": ["lib/src/kernels/common/impl/mli_krn_fully_connected_compiler.cc: FullyConnected_CS::GetKernelPrivateData, EncodeWeightsAndZeroPts", "lib/src/kernels/common/impl/mli_krn_fully_connected_runtime.cc: FullyConnected::FullyConnected, Issue", "include/mli_service_functions.hpp: EncodeWeightsAndZeroPts"]}
{"id": "C79", "title": "Reported buffer sizes are exactly what a tensor needs", "statement": "For every shape with positive sizes and strides that are not negative: if the largest element offset plus one fits 32 bits, the reported buffer size (in elements) is that number, so that every element lies inside a buffer of this size and no smaller buffer would do. Without strides the reported size is the number of elements, if that fits 32 bits. With a negative stride, or more elements, the reported size can be 0.", "quantifier": "all ranks, shapes and strides", "why_tests_cant": "depends on every combination of sizes and strides, including those whose intermediate products wrap", "anchors": ["include/mli_service_functions.hpp: GetBufferSize"]}
{"id": "C80", "title": "Conversion between integer and float tensors", "statement": "For scales from 1 to 32767, -88 to 127 fractional bits and any 16-bit zero point, per tensor or per index of an axis. From integers whose distance from the zero point is at most 2^24: every element of the output is finite and is the single precision number nearest to (element - zero point) * scale * 2^-fractional bits, exactly that value if the scale is 1. To integers, for finite values of at most 2^31 - 1024 steps of the format: the result is the zero point plus an integer within 1/2 + (|X|+1) * 2^-22 of the value in steps X, limited to the range of the format. An 8- or 16-bit tensor converted to floats and back to the same format has the same elements. Only elements of the output are written. Beyond these ranges not: a value such as 2^40 or an infinity is not limited to the range of the format (the conversion to int32_t is undefined), the result is not always the nearest integer, and with -128 fractional bits a zero becomes a NaN.", "quantifier": "all tensor shapes and strides, element values, float bit patterns and formats in the stated ranges", "why_tests_cant": "four roundings in sequence whose errors add up; every bit pattern of the float and every format must be covered", "anchors": ["lib/src/helpers/src/mli_helpers.cc: mli_hlp_convert_tensor", "lib/src/helpers/src/impl/mli_hlp_convert_tensor_ref.h: convert_float_data", "lib/src/pal/ref/mli_math.h: mli_math_float_scale"]}
{"id": "C81", "title": "Buffers for a few tiles", "statement": "The increments that Next reports for the position lead, added up, to the start of every tile that the iterator visits. In a cyclic buffer the increments of the first iteration dimension add up to the position in the endless sequence of its tiles, and no other axis moves, for the same tiles. The ring of a cyclic buffer for N tiles, N at most the number of tiles of the dimension or that number being one, is large enough: elements of any N tiles in sequence share a place only if they are the same element, for tiled dimensions and for the inputs of convolution-like kernels, unless the stride exceeds the kernel and there are two tiles. A writer that skips the elements brought by the tile before ends each tile where the reader's ends; while it is fewer than N tiles ahead, every element of the reader's tile is in the buffer and was not overwritten. Every other axis of the buffer has room for its largest tile; a buffer that is not cyclic has room for at least N of the largest tiles.", "quantifier": "all tile, kernel, stride and padding sizes, skews, alignments, numbers of tiles and of calls, and all distances of writer and reader", "why_tests_cant": "a place is reused only after a full turn of the ring, with clipped first and last tiles at the seam; tests use one geometry and a few tiles", "anchors": ["include/mli_iterator.hpp: TensorIterator::ShrinkBuffer, IteratorCfg::ShrinkCfg, TensorIterator::Next, IteratorCfg::RemoveOverlapAdjacentTiles"]}
{"id": "C82", "title": "Adjusting iterator configurations", "statement": "ApplyPrePadding moves every tile but the first by the padding of its axis, after which the tiles of a convolution-like kernel's input start at those of the output times the stride; the walk over the tiles still returns to its start. ApplyAlignsToSizes makes the sizes of a dimension with several tiles the next multiples of the alignment and keeps their starts. ConvertGran, for tiles and skew of whole new units, gives the tiling of the converted tensor, with every tile and every row at the same byte. OverrideIncrements, with the iteration dimensions in the order of the axes, cuts the dimension into tiles of the new size and a rest. A configuration put into one of more dimensions goes with Next over the same tiles and ends with the same one.", "quantifier": "all configurations, sizes, skews, paddings, alignments, unit sizes and tile positions", "why_tests_cant": "each adjustment changes six numbers per dimension that must stay consistent for every tile; tests look at one tiling", "anchors": ["include/mli_iterator.hpp: IteratorCfg::ApplyPrePadding, IteratorCfg::ApplyAlignsToSizes, IteratorCfg::ConvertGran, IteratorCfg::OverrideIncrements, IteratorCfg::set_config", "include/mli_types.hpp: Tensor::ConvertGran"]}
{"id": "C83", "title": "Clip and MatMul parameters from EncodeParams to the result", "statement": "EncodeParams of Clip (8-bit minimum and maximum) and of MatMul (two 8-bit zero points), given a destination of the size that GetEncodedParamsSize reports and a second source that is not the first byte of the destination, writes exactly those bytes. From any copy of them a runtime object with 8-bit input reads the values that were given, so that Clip, tile by tile, limits every element to them, and MatMul, in groups of rows, gives the sums of products of the elements minus the zero points.", "quantifier": "all values, buffers, copies, shapes, tilings and tensor contents", "why_tests_cant": "writer and reader are different programs that agree only through a byte layout; tests run one set of parameters", "anchors": ["lib/src/kernels/clip/mli_krn_clip_compiler.cc: Clip_CS::EncodeParams, Clip_CS::GetEncodedParamsSize", "lib/src/kernels/clip/mli_krn_clip_runtime.cc: Clip::Clip, Clip::Issue", "lib/src/kernels/convolution/mli_krn_matmul_compiler.cc: MatMul_CS::EncodeParams, MatMul_CS::GetEncodedParamsSize", "lib/src/kernels/convolution/mli_krn_matmul_ref.hpp: MatMul_prepare_and_run"]}
{"id": "C84", "title": "From compile time object to runtime object", "statement": "For every kernel with a compile time class other than Nop and ResizeBilinear, ExecutionInterface::Create, given the private data and its size from the compile time object and an aligned buffer of at least the size from GetRuntimeObjectSize, makes the runtime object of the same kernel; with a smaller buffer it returns the null pointer. Whatever private data is given, an object that is made fits in its buffer and is of the kernel named in the data. No two kernels have the same private data.", "quantifier": "all kernels, platforms (sizes of structures and objects), buffers and private data headers", "why_tests_cant": "numbers, structures and sizes are repeated in dozens of places (compile time class, private data, switch, constructor) that must agree for every kernel and platform", "anchors": ["lib/src/private/src/mli_runtime.cc: ExecutionInterface::Create", "include/internal/mli_ref_private_types.hpp", "include/mli_types.hpp: kernel_id_t, PrivateData", "include/mli_compiler_api.hpp: Nop_CS"]}
