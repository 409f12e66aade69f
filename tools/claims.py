"""property id -> (status, theorem names, note)"""
CLAIMS = {
'C01': ('proved', ['asr_fx_spec', 'asl_fx_spec'],
  'For every width >= 1, value and signed shift amount.'),
'C02': ('proved', ['asr_rnd_fx_spec', 'rnd_nearest', 'nearest_unique', 'asr_rnd_fx_total', 'asr_rnd_up_nearest_refuted'],
  'Nearest value in both rounding modes; in mode UP the saturating pre-add makes values within half a unit of the type maximum round down (asr_rnd_up_nearest_refuted), all others are exact; the error is always below one unit.'),
'C03': ('proved', ['add_fx_spec', 'sub_fx_spec', 'neg_fx_spec', 'abs_fx_spec', 'bound_range_spec', 'sat_fx_spec', 'cast_narrow_spec', 'cast_narrow_exact', 'cast_same_spec', 'cast_noshift_16_spec', 'acc_cast_8_spec', 'acc_cast_16_spec', 'cast_16_acc40_spec', 'cast_16_acc40_refuted'],
  'All but one: the cast of a 16 bit value to the 40-bit accumulator truncates to 32 bits (cast_16_acc40_refuted).'),
'C04': ('proved', ['norm_fx_spec', 'norm_fx_range', 'norm_fx_pos'], 'norm of 0 is 0 by definition of the function.'),
'C11': ('proved', ['count_elem_num_correct', 'count_elem_num_refuted'], 'Counts above 2^32 wrap.'),
'C12': ('proved', ['chk_tensor_sound', 'chk_tensor_complete', 'chk_tensor_refuted'],
  'Holds when no 32-bit product overflows in the checker; refuted without that proviso.'),
'C13': ('proved', ['create_subtensor_correct', 'create_subtensor_wrap_refuted', 'create_subtensor_rank_refuted', 'create_subtensor_qaxis_refuted'],
  'Holds for windows that do not wrap in uint32 arithmetic and ranks that only drop unit dimensions; the checker does not enforce these (refuted theorems).'),
'C14': ('proved', ['point_to_subtensor_correct', 'point_to_subtensor_rank_refuted', 'point_to_subtensor_nocoord_refuted'],
  'Accepted configurations are right; the checker rejects every slice of rank > 1 and has undefined behaviour for no coordinates.'),
'C15': ('proved', ['squash_generic_correct', 'squash_to_one_dim_correct', 'squash_inner_stride_refuted'], 'Requires innermost stride 1, which the kernels check.'),
'C16': ('proved', ['not_overlapped_sound', 'not_overlapped_complete', 'not_overlapped_refuted'], 'Sound and complete unless the end address wraps in 32 bits.'),
'C17': ('proved', ['permute_correct', 'permuted_exists', 'permute_qdim_correct'], 'Ranks of input and output are assumed equal (the checker does not compare them); copying of per-axis parameter arrays is not modelled beyond the axis index.'),
'C18': ('proved', ['permute_inverse'], 'For any two tensors linked by accepted permutes with inverse orders.'),
 "C19": ("proved", ["mov_prepare_correct", "mov_dst_shape_correct", "mov_fast_path_refuted", "mov_inside_refuted"],
   "Reference implementation without DMA, el_type with per-tensor parameters; per-axis parameter arrays are not copied in the model. The two refutations show that the preconditions are needed."),
 "C20": ("proved", ["mov_prepare_correct"], "Last conclusion is the frame condition; the source memory is a separate, unchanged argument of the model."),
 "C21": ("proved", ["mov_slices_correct", "mov_slices_whole", "mov_concat_correct"], "Tensors without per-axis quantization."),
 "C22": ("proved", ["mov_fast_path_agrees", "mov_fast_path_refuted"], ""),
 "C23": ("proved", ["dma_no_ub", "dma_handles_disjoint", "dma_acquire_complete", "dma_release_reacquire", "dma_acquire_ub_refuted", "dma_init_refuted", "dma_sync_ok", "dma_sync_empty_pool_refuted"],
   "Builds without USE_DMA."),
 "C24": ("proved", ["dma_channels_in_pool", "dma_pool_refuted"], ""),
 "C25": ("proved", ["dma_callback_once", "dma_no_spurious_callback", "dma_callback_count", "dma_sync_callback_refuted", "dma_stale_callback_refuted"], "Builds without USE_DMA."),
 "C26": ("proved", ["argmax_correct"], "Separate input and output memories; output rank 2 as documented (the checker does not compare it)."),
 "C05": ("proved", ["bias_fx8_spec", "bias_fx16_spec", "align_bias_real", "bias_fx16_shift_ok", "bias_fx16_refuted", "result_cast_fx_spec"], "bias_fx16_refuted: a 16-bit bias whose aligned value needs more than 32 bits is truncated although the accumulator could hold it."),
 "C06": ("proved", ["result_cast_s8_full", "result_cast_s8_reduced", "result_cast_s8_reduced_refuted"], "Positive int16 scales, 8-bit frac bits and zero points of input and output. The reduced accumulator needs 24-bit values (refuted beyond)."),
 "C07": ("proved", ["sa_dotprod_exact"], "Pieces in the order of the convolution kernel; signed overflow is undefined behaviour in the model, so success includes absence of overflow."),
 "C08": ("proved", ["dotprod3D_guard", "guard_bits_values", "dotprod_overflow_refuted"], "dotprod_overflow_refuted: one guard bit more does overflow."),
 "C09": ("proved", ["relu_limits_exact", "relu_clip_spec", "relu6_small_scale_refuted", "relu1_small_scale_refuted", "relu_limits_32_refuted"], "8 and 16 bit outputs; refuted theorems for very small scales and for 32-bit outputs."),
 "C10": ("proved", ["requant_ratio", "requant_zero_point"], ""),
 "C53": ("proved", ["bias_s8_full", "bias_s8_reduced"], ""),
 "C27": ("proved", ["maxpool_correct"], "Separate input and output memories."),
 "C28": ("proved", ["avepool_fx_correct", "avepool_sa8_correct", "avepool_fx8_area_refuted"], "avepool_fx8_area_refuted: a 40x40 window of 8-bit data overflows the accumulator."),
 "C29": ("proved", ["maxpool_correct", "avepool_fx_correct", "avepool_sa8_correct", "sumpool_correct", "pool_padding_refuted", "pool_padding_before_refuted"], "Success of the model includes absence of out-of-bounds accesses; frame_ok is the frame condition. The refuted theorems are accepted configurations with wider padding."),
 "C54": ("proved", ["sumpool_correct"], ""),
 "C30": ("proved", ["conv2d_fx_correct", "conv2d_overflow_refuted"], "HWCN weights; fx16, fx16_fx8_fx8 (and fx8) instantiations. fx_acc_ok bounds the accumulator; conv2d_overflow_refuted shows an accepted configuration beyond it."),
 "C31": ("proved", ["conv2d_sa8_correct"], "FULL_ACCU builds (the documented default); the weights zero point is 0 because the checker requires it."),
 "C32": ("proved", ["conv_stays_inside", "conv2d_fx_correct", "conv2d_sa8_correct"], "conv_stays_inside covers conv2d, depthwise and group convolution for every accepted size: addresses do not depend on data, the run on zero data fails only on an out-of-bounds access."),
 "C33": ("proved", ["depthwise_fx_correct", "depthwise_sa8_correct"], "Channel multiplier 1, as the checker requires."),
 "C34": ("proved", ["group_conv2d_fx_correct", "group_conv2d_sa8_correct", "chk_group_division_refuted"], "chk_group_division_refuted: the checker itself divides by zero when the weights are deeper than the input."),
 "C55": ("proved", ["conv2d_int_correct", "conv2d_int_zero_point_refuted"], "Weights zero point 0; conv2d_int_zero_point_refuted shows that other values are ignored. No checker exists in MLI 3.0: conv_shapes takes the shape conditions of the MLI 2.0 checker."),
 "C56": ("proved", ["depthwise_int_correct"], "Shape conditions as for C55."),
 "C35": ("proved", ["transpose_conv2d_fx_correct", "transpose_conv2d_sa8_correct", "transpose_stays_inside"], "Generic kernel (the specialised k2x2/k4x4 entry points run the same template). Accumulator bounds as for C30 and C31; transpose_stays_inside covers all accepted sizes."),
 "C57": ("proved", ["transpose_conv2d_int_correct"], "Shape conditions as for C55."),
 "C36": ("proved", ["fully_connected_fx_correct", "fully_connected_sa8_correct", "fully_connected_stays_inside", "fully_connected_overflow_refuted"], "fx16, fx16_fx8_fx8, fx8 and sa8 with and without ext_bias. fully_connected_overflow_refuted: without the bound on the element count the accumulator overflows for accepted tensors."),
 "C58": ("proved", ["fully_connected_int_correct", "fully_connected_int_batch_refuted"], "Per-tensor weights zero point. fully_connected_int_batch_refuted: with more than one input row the kernel reads the weights out of bounds."),
 "C37": ("proved", ["eltwise_fx_correct", "elt_exact_nearest", "eltwise_inplace_ok", "eltwise_align_refuted", "eltwise_shift_refuted", "eltwise_max_round_refuted", "eltwise_scalar_output_refuted"], "The refuted theorems show that the stated limits on the formats, the rounding of min/max and the rank of the output are needed."),
 "C59": ("proved", ["eltwise_int_correct", "eltwise_mul_exact", "eltwise_broadcast_refuted"], "eltwise_broadcast_refuted: shapes that the compile time class accepts as a broadcast of one dimension are not broadcast by the kernel."),
 "C60": ("proved", ["eltwise_sa8_correct", "eltwise_sa8_value", "eltwise_sa8_scales_refuted"], "eltwise_sa8_scales_refuted: beyond the limit on the scales the sum of two saturated operands can have the wrong sign."),
 "C38": ("proved", ["relu_correct", "leaky_relu_fx_correct", "prelu_fx_correct", "prelu_no_axis", "leaky_relu_sa8_correct", "prelu_sa8_correct", "leaky_fx16_refuted", "prelu_strided_slope_refuted", "prelu_negative_axis_refuted", "leaky_sa8_scales_refuted"], "leaky_fx16_refuted: with 16 fractional bits of the slope the shift limit loses a rounding. prelu_strided_slope_refuted: the checks accept slopes that are not adjacent, the kernel reads adjacent elements. prelu_negative_axis_refuted: the checks accept axes below -1. leaky_sa8_scales_refuted: beyond the limit on the scales the slope is applied to a saturated factor."),
 "C61": ("proved", ["prelu3_correct", "prelu3_value", "prelu3_overflow_refuted"], "prelu3_overflow_refuted: a difference that overflows 32 bits selects the wrong scale."),
 "C39": ("proved", ["act_fx_correct", "act_sa8_correct", "lut_elem_safe", "act_fx_monotone", "act_sa8_monotone", "library_tables_ok", "sigm_tanh_fx8_monotone", "sigm_tanh_sa8_monotone", "sigm_tanh_fx16_monotone", "create_lut_correct", "sigm_tanh_fx16_monotone_refuted"], "sigm_tanh_fx16_monotone_refuted: beyond the ends of the table the index is clamped but the fraction is not, so the result jumps between the last two entries."),
 "C40": ("proved", ["softmax_fx16_correct", "softmax_sa8_correct", "softmax_fx16_total", "softmax_sa8_total", "expneg_exp_lut", "softmax_recip_fx8", "softmax_fx8_refuted"], "softmax_fx8_refuted: sum_mnt and sum_recip have 8 bits in the deprecated mli_krn_softmax_fx8; the reciprocal becomes -1 for every sum and all results round to 0."),
 "C41": ("proved", ["l2_fx16_correct", "l2_sa8_correct", "l2_axis_refuted"], "The quotient and the square root are those of Coq's real numbers."),
 "C44": ("proved", ["rescale_correct", "rescale_value_exact", "rescale_exact_fits", "rescale_difference_refuted", "rescale_issue_refuted"], "The input is a separate buffer."),
 "C45": ("proved", ["clip_correct"], ""),
 "C46": ("proved", ["reduce_max_correct", "reduce_sum_correct", "reduce_sum_refuted"], "The input is a separate buffer."),
 "C47": ("proved", ["resize_bilinear_correct", "bilinear_between", "sample_inside", "resize_offset_refuted"], "The input is a separate buffer."),
 "C48": ("proved", ["matmul_correct", "matmul_refuted"], "The operands are separate from the output."),
 "C49": ("proved", ["tiles_partition", "tiles_inside", "tile_dim_cuts"], "Sizes below 2^31."),
 "C50": ("proved", ["iter_walk", "iter_visits_once", "iter_offset_correct", "iter_offset_order_refuted", "iter_offset_whole_refuted"], "Buffers of the full tensor (no buffer tiles)."),
 "C51": ("proved", ["slice_view", "slice_offs_view", "slice_valid", "slice_size_refuted", "transpose_view", "split_view", "combine_view", "combine_split", "combine_rows_refuted", "contig_view_correct"], ""),
 "C52": ("proved", ["link_window", "rel_window", "inc_window_refuted", "tensor_window", "contig_window"], ""),
 "C62": ("proved", ["kernel_tiles_cover"], ""),
 "C63": ("proved", ["remove_overlap_cuts", "remove_overlap_refuted"], ""),
 "C64": ("proved", ["update_idx_sizes", "update_idx_dense", "update_idx_tiles", "update_idx_refuted"], ""),
 "C65": ("proved", ["iter_increments", "iter_increments_refuted"], ""),
 "C66": ("proved", ["transpose_tiles", "transpose_order_refuted", "drop_axis_tiles", "drop_axis_refuted"], ""),
 "C43": ("proved", ["convert_elem_close", "convert_same_scale_exact", "convert_identity", "convert_identity_32_refuted", "convert_zero_point_32_refuted", "convert_tensor_correct", "convert_inplace_ok", "convert_inplace_strides_refuted"], "Conversions from and to float are not modelled."),
 "C42": ("proved", ["lstm_cell_correct", "gru_cell_correct", "lstm_cell_stream", "gru_cell_stream", "rnn_dense_correct", "dense_fx_value", "dense_sa8_value", "rnn_gate_fx_value", "rnn_gate_sa8_value", "rnn_elt_fx_value", "rnn_elt_sa8_value", "rnn_act_fx_value", "gru_compl_fx", "gru_per_tensor_refuted"], "The equations use the library's dense, activation and element operations, whose values are given by the other theorems of this claim. The closed form of the 8-bit gates is for the full accumulator and sums below 2^29."),
 "C67": ("proved", ["sigmoid_fx16_real", "tanh_fx16_real", "sigmoid_fx8_real", "tanh_fx8_real", "sigmoid_sa8_real", "tanh_sa8_real", "softmax_fx16_real", "softmax_sa8_real", "sigmoid_entries", "tanh_entries", "expneg_entries"], "Over the reals of the standard library. The 8-bit fixed point softmax is excluded: its results are refuted in C40."),
 "C68": ("proved", ["conv_tile_correct", "conv_tiles_whole", "conv_tiles_untiled", "conv_tile_legal", "conv_order_refuted", "input_tile_bound_refuted"], "8-bit input and weights, symmetric weights (zero point 0); iterators set up as in the library's tests, batch and groups 1 as asserted by the library."),
 "C69": ("proved", ["dw_tile_correct", "dw_tiles_whole", "dw_tile_legal", "dw_batch_refuted"], "8-bit input and weights, one weights zero point (the kernel reads only the first one of a tile); iterators set up as in the library's tests."),
 "C70": ("proved", ["max_tile_correct", "sum_tile_correct", "max_tiles_whole", "sum_tiles_whole", "pool_tile_legal", "sumpool_pad_refuted", "maxpool_tail_refuted"], "Maximum pooling for any element type; sum pooling for 8-bit input; iterators set up as in the library's tests."),
 "C71": ("proved", ["elt_tiles_whole", "clip_tiles_whole", "rescale_tiles_whole", "prelu_tiles_whole", "enc_size_ok", "param_layout_ok", "tile_usable", "tile_legal"], "Rescale to 8 bits and Prelu from 32 to 8 bits, the type combinations that run (C44, C61); the subtraction of Prelu must not overflow, as in C61. Element-wise operands have the shape of the output or are scalars; per-axis broadcasting, which the shape assertions admit, is refuted under C37."),
 "C72": ("proved", ["trans_tile_correct", "trans_tiles_whole", "trans_tiles_untiled", "trans_tile_legal", "trans_overlap_refuted"], "8-bit input and weights, 32-bit output, zero point of the weights 0, iteration in the order of the axes. The restriction to kernel = stride along tiled axes is necessary: trans_overlap_refuted."),
 "C73": ("proved", ["move_tile", "move_all", "move_in", "move_out", "move_uncut_refuted", "move_order_refuted"], "Source and destination do not overlap. The restrictions on the increments and the order are necessary: move_uncut_refuted, move_order_refuted."),
 "C74": ("proved", ["pipeline_whole", "clip_pipeline", "move_issue1_two"], "Tilings in the order of the axes with every axis cut or of size 1 (see C73)."),
 "C75": ("proved", ["broadcast_tiles_whole", "reduce_sum_tiles_whole", "reduce_max_tiles", "matmul_tiles_whole", "broadcast_cut_refuted", "reduce_max_first_refuted", "matmul_offsets_refuted", "matmul_columns_refuted"], "The refuted theorems are about the code as it is: the constructor of ReduceMax reads the shape of the whole tensor, and MatMul::GetIOSizesAndOffsets reports the left offsets for the right input."),
 "C76": ("proved", ["permute_tiles_whole", "permute_reports", "perm_in_step", "perm_tiles", "permute_steps_refuted", "permute_order_refuted", "permute_16_refuted"], "The refuted theorems are about the code as it is."),
 "C77": ("proved", ["rescale_params_whole", "rescale_params_tile", "rescale_encoded_whole", "prelu_params_whole", "prelu_params_tile", "prelu_cnt_last", "prelu_encoded_whole", "rescale_copies_fit", "prelu_copies_fit", "params_aligned", "weights_zp_encoded", "zp_encoded", "weights_encoded", "weights_encoded_holds", "weights_refused", "rescale_misaligned_refuted", "weights_size_refuted", "rescale_direct_refuted", "prelu_per_tensor_refuted", "prelu_first_axis_refuted", "weights_view_refuted"], "The refuted theorems are about the code as it is."),
 "C78": ("proved", ["fc_encoded_whole", "fc_zero_points_refuted"], "The refuted theorem is about the code as it is."),
 "C79": ("proved", ["buf_size_exact", "buf_dense_exact", "buf_size_negative_refuted"], "The refuted theorem is about the code as it is."),
 "C80": ("proved", ["dequantize_nearest", "dequantize_exact", "quantize_close", "quantize_dequantize", "dequantize_tensor_correct", "quantize_tensor_correct", "float_roundtrip", "quantize_range_refuted", "quantize_nearest_refuted", "dequantize_scale_refuted"], "The refuted theorems are about the code as it is. Uses the axioms of the standard library's Reals."),
 "C81": ("proved", ["pos_increments", "ring_positions", "ring_tiles", "ring_tiles_exact", "ring_kernel", "ring_ends", "ring_handover", "ring_dims", "plain_dims", "ring_stride_refuted", "ring_overlap_refuted", "ring_many_refuted", "plain_dims_refuted"], "The refuted theorems are about the code as it is: a stride larger than the kernel, more tiles than the dimension has, and the number of tiles multiplied in once per iteration dimension."),
 "C82": ("proved", ["prepad_starts", "prepad_kernel", "align_sizes", "gran_tiling", "gran_strides", "override_cuts", "extend_same", "align_single_refuted", "gran_return_refuted", "override_order_refuted", "extend_done_refuted"], "The refuted theorems are about the code as it is: one tile is not aligned, the increment back to the start is rounded the wrong way by ConvertGran, OverrideIncrements takes the dimension by iteration number, and Next with increments never ends after set_config from fewer dimensions."),
 "C83": ("proved", ["clip_params_whole", "mm_params_whole", "clip_encoded_whole", "matmul_encoded_whole", "clip_params32_refuted", "mm_params_size_refuted", "mm_params_alias_refuted"], "The refuted theorems are about the code as it is: 32-bit Clip cannot get its limits from EncodeParams, the chained comparison in MatMul_CS::EncodeParams accepts buffers of any equal size, and sources that share the first byte of the destination are overwritten before they are read."),
 "C84": ("proved", ["create_own", "create_small", "create_only", "create_distinct", "create_nop_refuted", "create_resize_refuted"], "The refuted theorems are about the code as it is: Nop_CS reports an object size of 0, with which Create always returns the null pointer, and Create has no case for ResizeBilinear."),
}
