{
 "claims": [
  {
   "property": "C01",
   "status": "proved",
   "theorems": [
    "C01_asr_fx_spec",
    "C01_asl_fx_spec"
   ],
   "note": "For every width >= 1, value and signed shift amount."
  },
  {
   "property": "C02",
   "status": "proved",
   "theorems": [
    "C02_asr_rnd_fx_spec",
    "C02_rnd_nearest",
    "C02_nearest_unique",
    "C02_asr_rnd_fx_total",
    "C02_asr_rnd_up_nearest_refuted"
   ],
   "note": "Nearest value in both rounding modes; in mode UP the saturating pre-add makes values within half a unit of the type maximum round down (asr_rnd_up_nearest_refuted), all others are exact; the error is always below one unit."
  },
  {
   "property": "C03",
   "status": "proved",
   "theorems": [
    "C03_add_fx_spec",
    "C03_sub_fx_spec",
    "C03_neg_fx_spec",
    "C03_abs_fx_spec",
    "C03_bound_range_spec",
    "C03_sat_fx_spec",
    "C03_cast_narrow_spec",
    "C03_cast_narrow_exact",
    "C03_cast_same_spec",
    "C03_cast_noshift_16_spec",
    "C03_acc_cast_8_spec",
    "C03_acc_cast_16_spec",
    "C03_cast_16_acc40_spec",
    "C03_cast_16_acc40_refuted"
   ],
   "note": "All but one: the cast of a 16 bit value to the 40-bit accumulator truncates to 32 bits (cast_16_acc40_refuted)."
  },
  {
   "property": "C04",
   "status": "proved",
   "theorems": [
    "C04_norm_fx_spec",
    "C04_norm_fx_range",
    "C04_norm_fx_pos"
   ],
   "note": "norm of 0 is 0 by definition of the function."
  },
  {
   "property": "C05",
   "status": "proved",
   "theorems": [
    "C05_bias_fx8_spec",
    "C05_bias_fx16_spec",
    "C05_align_bias_real",
    "C05_bias_fx16_shift_ok",
    "C05_bias_fx16_refuted",
    "C05_result_cast_fx_spec"
   ],
   "note": "bias_fx16_refuted: a 16-bit bias whose aligned value needs more than 32 bits is truncated although the accumulator could hold it."
  },
  {
   "property": "C06",
   "status": "proved",
   "theorems": [
    "C06_result_cast_s8_full",
    "C06_result_cast_s8_reduced",
    "C06_result_cast_s8_reduced_refuted"
   ],
   "note": "Positive int16 scales, 8-bit frac bits and zero points of input and output. The reduced accumulator needs 24-bit values (refuted beyond)."
  },
  {
   "property": "C07",
   "status": "proved",
   "theorems": [
    "C07_sa_dotprod_exact"
   ],
   "note": "Pieces in the order of the convolution kernel; signed overflow is undefined behaviour in the model, so success includes absence of overflow."
  },
  {
   "property": "C08",
   "status": "proved",
   "theorems": [
    "C08_dotprod3D_guard",
    "C08_guard_bits_values",
    "C08_dotprod_overflow_refuted"
   ],
   "note": "dotprod_overflow_refuted: one guard bit more does overflow."
  },
  {
   "property": "C09",
   "status": "proved",
   "theorems": [
    "C09_relu_limits_exact",
    "C09_relu_clip_spec",
    "C09_relu6_small_scale_refuted",
    "C09_relu1_small_scale_refuted",
    "C09_relu_limits_32_refuted"
   ],
   "note": "8 and 16 bit outputs; refuted theorems for very small scales and for 32-bit outputs."
  },
  {
   "property": "C10",
   "status": "proved",
   "theorems": [
    "C10_requant_ratio",
    "C10_requant_zero_point"
   ],
   "note": ""
  },
  {
   "property": "C11",
   "status": "proved",
   "theorems": [
    "C11_count_elem_num_correct",
    "C11_count_elem_num_refuted"
   ],
   "note": "Counts above 2^32 wrap."
  },
  {
   "property": "C12",
   "status": "proved",
   "theorems": [
    "C12_chk_tensor_sound",
    "C12_chk_tensor_complete",
    "C12_chk_tensor_refuted"
   ],
   "note": "Holds when no 32-bit product overflows in the checker; refuted without that proviso."
  },
  {
   "property": "C13",
   "status": "proved",
   "theorems": [
    "C13_create_subtensor_correct",
    "C13_create_subtensor_wrap_refuted",
    "C13_create_subtensor_rank_refuted",
    "C13_create_subtensor_qaxis_refuted"
   ],
   "note": "Holds for windows that do not wrap in uint32 arithmetic and ranks that only drop unit dimensions; the checker does not enforce these (refuted theorems)."
  },
  {
   "property": "C14",
   "status": "proved",
   "theorems": [
    "C14_point_to_subtensor_correct",
    "C14_point_to_subtensor_rank_refuted",
    "C14_point_to_subtensor_nocoord_refuted"
   ],
   "note": "Accepted configurations are right; the checker rejects every slice of rank > 1 and has undefined behaviour for no coordinates."
  },
  {
   "property": "C15",
   "status": "proved",
   "theorems": [
    "C15_squash_generic_correct",
    "C15_squash_to_one_dim_correct",
    "C15_squash_inner_stride_refuted"
   ],
   "note": "Requires innermost stride 1, which the kernels check."
  },
  {
   "property": "C16",
   "status": "proved",
   "theorems": [
    "C16_not_overlapped_sound",
    "C16_not_overlapped_complete",
    "C16_not_overlapped_refuted"
   ],
   "note": "Sound and complete unless the end address wraps in 32 bits."
  },
  {
   "property": "C17",
   "status": "proved",
   "theorems": [
    "C17_permute_correct",
    "C17_permuted_exists",
    "C17_permute_qdim_correct"
   ],
   "note": "Ranks of input and output are assumed equal (the checker does not compare them); copying of per-axis parameter arrays is not modelled beyond the axis index."
  },
  {
   "property": "C18",
   "status": "proved",
   "theorems": [
    "C18_permute_inverse"
   ],
   "note": "For any two tensors linked by accepted permutes with inverse orders."
  },
  {
   "property": "C19",
   "status": "proved",
   "theorems": [
    "C19_mov_prepare_correct",
    "C19_mov_dst_shape_correct",
    "C19_mov_fast_path_refuted",
    "C19_mov_inside_refuted"
   ],
   "note": "Reference implementation without DMA, el_type with per-tensor parameters; per-axis parameter arrays are not copied in the model. The two refutations show that the preconditions are needed."
  },
  {
   "property": "C20",
   "status": "proved",
   "theorems": [
    "C20_mov_prepare_correct"
   ],
   "note": "Last conclusion is the frame condition; the source memory is a separate, unchanged argument of the model."
  },
  {
   "property": "C21",
   "status": "proved",
   "theorems": [
    "C21_mov_slices_correct",
    "C21_mov_slices_whole",
    "C21_mov_concat_correct"
   ],
   "note": "Tensors without per-axis quantization."
  },
  {
   "property": "C22",
   "status": "proved",
   "theorems": [
    "C22_mov_fast_path_agrees",
    "C22_mov_fast_path_refuted"
   ],
   "note": ""
  },
  {
   "property": "C23",
   "status": "proved",
   "theorems": [
    "C23_dma_no_ub",
    "C23_dma_handles_disjoint",
    "C23_dma_acquire_complete",
    "C23_dma_release_reacquire",
    "C23_dma_acquire_ub_refuted",
    "C23_dma_init_refuted",
    "C23_dma_sync_ok",
    "C23_dma_sync_empty_pool_refuted"
   ],
   "note": "Builds without USE_DMA."
  },
  {
   "property": "C24",
   "status": "proved",
   "theorems": [
    "C24_dma_channels_in_pool",
    "C24_dma_pool_refuted"
   ],
   "note": ""
  },
  {
   "property": "C25",
   "status": "proved",
   "theorems": [
    "C25_dma_callback_once",
    "C25_dma_no_spurious_callback",
    "C25_dma_callback_count",
    "C25_dma_sync_callback_refuted",
    "C25_dma_stale_callback_refuted"
   ],
   "note": "Builds without USE_DMA."
  },
  {
   "property": "C26",
   "status": "proved",
   "theorems": [
    "C26_argmax_correct"
   ],
   "note": "Separate input and output memories; output rank 2 as documented (the checker does not compare it)."
  },
  {
   "property": "C27",
   "status": "proved",
   "theorems": [
    "C27_maxpool_correct"
   ],
   "note": "Separate input and output memories."
  },
  {
   "property": "C28",
   "status": "proved",
   "theorems": [
    "C28_avepool_fx_correct",
    "C28_avepool_sa8_correct",
    "C28_avepool_fx8_area_refuted"
   ],
   "note": "avepool_fx8_area_refuted: a 40x40 window of 8-bit data overflows the accumulator."
  },
  {
   "property": "C29",
   "status": "proved",
   "theorems": [
    "C29_maxpool_correct",
    "C29_avepool_fx_correct",
    "C29_avepool_sa8_correct",
    "C29_sumpool_correct",
    "C29_pool_padding_refuted",
    "C29_pool_padding_before_refuted"
   ],
   "note": "Success of the model includes absence of out-of-bounds accesses; frame_ok is the frame condition. The refuted theorems are accepted configurations with wider padding."
  },
  {
   "property": "C30",
   "status": "proved",
   "theorems": [
    "C30_conv2d_fx_correct",
    "C30_conv2d_overflow_refuted"
   ],
   "note": "HWCN weights; fx16, fx16_fx8_fx8 (and fx8) instantiations. fx_acc_ok bounds the accumulator; conv2d_overflow_refuted shows an accepted configuration beyond it."
  },
  {
   "property": "C31",
   "status": "proved",
   "theorems": [
    "C31_conv2d_sa8_correct"
   ],
   "note": "FULL_ACCU builds (the documented default); the weights zero point is 0 because the checker requires it."
  },
  {
   "property": "C32",
   "status": "proved",
   "theorems": [
    "C32_conv_stays_inside",
    "C32_conv2d_fx_correct",
    "C32_conv2d_sa8_correct"
   ],
   "note": "conv_stays_inside covers conv2d, depthwise and group convolution for every accepted size: addresses do not depend on data, the run on zero data fails only on an out-of-bounds access."
  },
  {
   "property": "C33",
   "status": "proved",
   "theorems": [
    "C33_depthwise_fx_correct",
    "C33_depthwise_sa8_correct"
   ],
   "note": "Channel multiplier 1, as the checker requires."
  },
  {
   "property": "C34",
   "status": "proved",
   "theorems": [
    "C34_group_conv2d_fx_correct",
    "C34_group_conv2d_sa8_correct",
    "C34_chk_group_division_refuted"
   ],
   "note": "chk_group_division_refuted: the checker itself divides by zero when the weights are deeper than the input."
  },
  {
   "property": "C35",
   "status": "proved",
   "theorems": [
    "C35_transpose_conv2d_fx_correct",
    "C35_transpose_conv2d_sa8_correct",
    "C35_transpose_stays_inside"
   ],
   "note": "Generic kernel (the specialised k2x2/k4x4 entry points run the same template). Accumulator bounds as for C30 and C31; transpose_stays_inside covers all accepted sizes."
  },
  {
   "property": "C36",
   "status": "proved",
   "theorems": [
    "C36_fully_connected_fx_correct",
    "C36_fully_connected_sa8_correct",
    "C36_fully_connected_stays_inside",
    "C36_fully_connected_overflow_refuted"
   ],
   "note": "fx16, fx16_fx8_fx8, fx8 and sa8 with and without ext_bias. fully_connected_overflow_refuted: without the bound on the element count the accumulator overflows for accepted tensors."
  },
  {
   "property": "C37",
   "status": "proved",
   "theorems": [
    "C37_eltwise_fx_correct",
    "C37_elt_exact_nearest",
    "C37_eltwise_inplace_ok",
    "C37_eltwise_align_refuted",
    "C37_eltwise_shift_refuted",
    "C37_eltwise_max_round_refuted",
    "C37_eltwise_scalar_output_refuted"
   ],
   "note": "The refuted theorems show that the stated limits on the formats, the rounding of min/max and the rank of the output are needed."
  },
  {
   "property": "C38",
   "status": "proved",
   "theorems": [
    "C38_relu_correct",
    "C38_leaky_relu_fx_correct",
    "C38_prelu_fx_correct",
    "C38_prelu_no_axis",
    "C38_leaky_relu_sa8_correct",
    "C38_prelu_sa8_correct",
    "C38_leaky_fx16_refuted",
    "C38_prelu_strided_slope_refuted",
    "C38_prelu_negative_axis_refuted",
    "C38_leaky_sa8_scales_refuted"
   ],
   "note": "leaky_fx16_refuted: with 16 fractional bits of the slope the shift limit loses a rounding. prelu_strided_slope_refuted: the checks accept slopes that are not adjacent, the kernel reads adjacent elements. prelu_negative_axis_refuted: the checks accept axes below -1. leaky_sa8_scales_refuted: beyond the limit on the scales the slope is applied to a saturated factor."
  },
  {
   "property": "C39",
   "status": "proved",
   "theorems": [
    "C39_act_fx_correct",
    "C39_act_sa8_correct",
    "C39_lut_elem_safe",
    "C39_act_fx_monotone",
    "C39_act_sa8_monotone",
    "C39_library_tables_ok",
    "C39_sigm_tanh_fx8_monotone",
    "C39_sigm_tanh_sa8_monotone",
    "C39_sigm_tanh_fx16_monotone",
    "C39_create_lut_correct",
    "C39_sigm_tanh_fx16_monotone_refuted"
   ],
   "note": "sigm_tanh_fx16_monotone_refuted: beyond the ends of the table the index is clamped but the fraction is not, so the result jumps between the last two entries."
  },
  {
   "property": "C40",
   "status": "proved",
   "theorems": [
    "C40_softmax_fx16_correct",
    "C40_softmax_sa8_correct",
    "C40_softmax_fx16_total",
    "C40_softmax_sa8_total",
    "C40_expneg_exp_lut",
    "C40_softmax_recip_fx8",
    "C40_softmax_fx8_refuted"
   ],
   "note": "softmax_fx8_refuted: sum_mnt and sum_recip have 8 bits in the deprecated mli_krn_softmax_fx8; the reciprocal becomes -1 for every sum and all results round to 0."
  },
  {
   "property": "C41",
   "status": "proved",
   "theorems": [
    "C41_l2_fx16_correct",
    "C41_l2_sa8_correct",
    "C41_l2_axis_refuted"
   ],
   "note": "The quotient and the square root are those of Coq's real numbers."
  },
  {
   "property": "C42",
   "status": "proved",
   "theorems": [
    "C42_lstm_cell_correct",
    "C42_gru_cell_correct",
    "C42_lstm_cell_stream",
    "C42_gru_cell_stream",
    "C42_rnn_dense_correct",
    "C42_dense_fx_value",
    "C42_dense_sa8_value",
    "C42_rnn_gate_fx_value",
    "C42_rnn_gate_sa8_value",
    "C42_rnn_elt_fx_value",
    "C42_rnn_elt_sa8_value",
    "C42_rnn_act_fx_value",
    "C42_gru_compl_fx",
    "C42_gru_per_tensor_refuted"
   ],
   "note": "The equations use the library's dense, activation and element operations, whose values are given by the other theorems of this claim. The closed form of the 8-bit gates is for the full accumulator and sums below 2^29."
  },
  {
   "property": "C43",
   "status": "proved",
   "theorems": [
    "C43_convert_elem_close",
    "C43_convert_same_scale_exact",
    "C43_convert_identity",
    "C43_convert_identity_32_refuted",
    "C43_convert_zero_point_32_refuted",
    "C43_convert_tensor_correct",
    "C43_convert_inplace_ok",
    "C43_convert_inplace_strides_refuted"
   ],
   "note": "Conversions from and to float are not modelled."
  },
  {
   "property": "C44",
   "status": "proved",
   "theorems": [
    "C44_rescale_correct",
    "C44_rescale_value_exact",
    "C44_rescale_exact_fits",
    "C44_rescale_difference_refuted",
    "C44_rescale_issue_refuted"
   ],
   "note": "The input is a separate buffer."
  },
  {
   "property": "C45",
   "status": "proved",
   "theorems": [
    "C45_clip_correct"
   ],
   "note": ""
  },
  {
   "property": "C46",
   "status": "proved",
   "theorems": [
    "C46_reduce_max_correct",
    "C46_reduce_sum_correct",
    "C46_reduce_sum_refuted"
   ],
   "note": "The input is a separate buffer."
  },
  {
   "property": "C47",
   "status": "proved",
   "theorems": [
    "C47_resize_bilinear_correct",
    "C47_bilinear_between",
    "C47_sample_inside",
    "C47_resize_offset_refuted"
   ],
   "note": "The input is a separate buffer."
  },
  {
   "property": "C48",
   "status": "proved",
   "theorems": [
    "C48_matmul_correct",
    "C48_matmul_refuted"
   ],
   "note": "The operands are separate from the output."
  },
  {
   "property": "C49",
   "status": "proved",
   "theorems": [
    "C49_tiles_partition",
    "C49_tiles_inside",
    "C49_tile_dim_cuts"
   ],
   "note": "Sizes below 2^31."
  },
  {
   "property": "C50",
   "status": "proved",
   "theorems": [
    "C50_iter_walk",
    "C50_iter_visits_once",
    "C50_iter_offset_correct",
    "C50_iter_offset_order_refuted",
    "C50_iter_offset_whole_refuted"
   ],
   "note": "Buffers of the full tensor (no buffer tiles)."
  },
  {
   "property": "C51",
   "status": "proved",
   "theorems": [
    "C51_slice_view",
    "C51_slice_offs_view",
    "C51_slice_valid",
    "C51_slice_size_refuted",
    "C51_transpose_view",
    "C51_split_view",
    "C51_combine_view",
    "C51_combine_split",
    "C51_combine_rows_refuted",
    "C51_contig_view_correct"
   ],
   "note": ""
  },
  {
   "property": "C52",
   "status": "proved",
   "theorems": [
    "C52_link_window",
    "C52_rel_window",
    "C52_inc_window_refuted",
    "C52_tensor_window",
    "C52_contig_window"
   ],
   "note": ""
  },
  {
   "property": "C53",
   "status": "proved",
   "theorems": [
    "C53_bias_s8_full",
    "C53_bias_s8_reduced"
   ],
   "note": ""
  },
  {
   "property": "C54",
   "status": "proved",
   "theorems": [
    "C54_sumpool_correct"
   ],
   "note": ""
  },
  {
   "property": "C55",
   "status": "proved",
   "theorems": [
    "C55_conv2d_int_correct",
    "C55_conv2d_int_zero_point_refuted"
   ],
   "note": "Weights zero point 0; conv2d_int_zero_point_refuted shows that other values are ignored. No checker exists in MLI 3.0: conv_shapes takes the shape conditions of the MLI 2.0 checker."
  },
  {
   "property": "C56",
   "status": "proved",
   "theorems": [
    "C56_depthwise_int_correct"
   ],
   "note": "Shape conditions as for C55."
  },
  {
   "property": "C57",
   "status": "proved",
   "theorems": [
    "C57_transpose_conv2d_int_correct"
   ],
   "note": "Shape conditions as for C55."
  },
  {
   "property": "C58",
   "status": "proved",
   "theorems": [
    "C58_fully_connected_int_correct",
    "C58_fully_connected_int_batch_refuted"
   ],
   "note": "Per-tensor weights zero point. fully_connected_int_batch_refuted: with more than one input row the kernel reads the weights out of bounds."
  },
  {
   "property": "C59",
   "status": "proved",
   "theorems": [
    "C59_eltwise_int_correct",
    "C59_eltwise_mul_exact",
    "C59_eltwise_broadcast_refuted"
   ],
   "note": "eltwise_broadcast_refuted: shapes that the compile time class accepts as a broadcast of one dimension are not broadcast by the kernel."
  },
  {
   "property": "C60",
   "status": "proved",
   "theorems": [
    "C60_eltwise_sa8_correct",
    "C60_eltwise_sa8_value",
    "C60_eltwise_sa8_scales_refuted"
   ],
   "note": "eltwise_sa8_scales_refuted: beyond the limit on the scales the sum of two saturated operands can have the wrong sign."
  },
  {
   "property": "C61",
   "status": "proved",
   "theorems": [
    "C61_prelu3_correct",
    "C61_prelu3_value",
    "C61_prelu3_overflow_refuted"
   ],
   "note": "prelu3_overflow_refuted: a difference that overflows 32 bits selects the wrong scale."
  },
  {
   "property": "C62",
   "status": "proved",
   "theorems": [
    "C62_kernel_tiles_cover"
   ],
   "note": ""
  },
  {
   "property": "C63",
   "status": "proved",
   "theorems": [
    "C63_remove_overlap_cuts",
    "C63_remove_overlap_refuted"
   ],
   "note": ""
  },
  {
   "property": "C64",
   "status": "proved",
   "theorems": [
    "C64_update_idx_sizes",
    "C64_update_idx_dense",
    "C64_update_idx_tiles",
    "C64_update_idx_refuted"
   ],
   "note": ""
  },
  {
   "property": "C65",
   "status": "proved",
   "theorems": [
    "C65_iter_increments",
    "C65_iter_increments_refuted"
   ],
   "note": ""
  },
  {
   "property": "C66",
   "status": "proved",
   "theorems": [
    "C66_transpose_tiles",
    "C66_transpose_order_refuted",
    "C66_drop_axis_tiles",
    "C66_drop_axis_refuted"
   ],
   "note": ""
  },
  {
   "property": "C67",
   "status": "proved",
   "theorems": [
    "C67_sigmoid_fx16_real",
    "C67_tanh_fx16_real",
    "C67_sigmoid_fx8_real",
    "C67_tanh_fx8_real",
    "C67_sigmoid_sa8_real",
    "C67_tanh_sa8_real",
    "C67_softmax_fx16_real",
    "C67_softmax_sa8_real",
    "C67_sigmoid_entries",
    "C67_tanh_entries",
    "C67_expneg_entries"
   ],
   "note": "Over the reals of the standard library. The 8-bit fixed point softmax is excluded: its results are refuted in C40."
  },
  {
   "property": "C68",
   "status": "proved",
   "theorems": [
    "C68_conv_tile_correct",
    "C68_conv_tiles_whole",
    "C68_conv_tiles_untiled",
    "C68_conv_tile_legal",
    "C68_conv_order_refuted",
    "C68_input_tile_bound_refuted"
   ],
   "note": "8-bit input and weights, symmetric weights (zero point 0); iterators set up as in the library's tests, batch and groups 1 as asserted by the library."
  },
  {
   "property": "C69",
   "status": "proved",
   "theorems": [
    "C69_dw_tile_correct",
    "C69_dw_tiles_whole",
    "C69_dw_tile_legal",
    "C69_dw_batch_refuted"
   ],
   "note": "8-bit input and weights, one weights zero point (the kernel reads only the first one of a tile); iterators set up as in the library's tests."
  },
  {
   "property": "C70",
   "status": "proved",
   "theorems": [
    "C70_max_tile_correct",
    "C70_sum_tile_correct",
    "C70_max_tiles_whole",
    "C70_sum_tiles_whole",
    "C70_pool_tile_legal",
    "C70_sumpool_pad_refuted",
    "C70_maxpool_tail_refuted"
   ],
   "note": "Maximum pooling for any element type; sum pooling for 8-bit input; iterators set up as in the library's tests."
  },
  {
   "property": "C71",
   "status": "proved",
   "theorems": [
    "C71_elt_tiles_whole",
    "C71_clip_tiles_whole",
    "C71_rescale_tiles_whole",
    "C71_prelu_tiles_whole",
    "C71_enc_size_ok",
    "C71_param_layout_ok",
    "C71_tile_usable",
    "C71_tile_legal"
   ],
   "note": "Rescale to 8 bits and Prelu from 32 to 8 bits, the type combinations that run (C44, C61); the subtraction of Prelu must not overflow, as in C61. Element-wise operands have the shape of the output or are scalars; per-axis broadcasting, which the shape assertions admit, is refuted under C37."
  },
  {
   "property": "C72",
   "status": "proved",
   "theorems": [
    "C72_trans_tile_correct",
    "C72_trans_tiles_whole",
    "C72_trans_tiles_untiled",
    "C72_trans_tile_legal",
    "C72_trans_overlap_refuted"
   ],
   "note": "8-bit input and weights, 32-bit output, zero point of the weights 0, iteration in the order of the axes. The restriction to kernel = stride along tiled axes is necessary: trans_overlap_refuted."
  },
  {
   "property": "C73",
   "status": "proved",
   "theorems": [
    "C73_move_tile",
    "C73_move_all",
    "C73_move_in",
    "C73_move_out",
    "C73_move_uncut_refuted",
    "C73_move_order_refuted"
   ],
   "note": "Source and destination do not overlap. The restrictions on the increments and the order are necessary: move_uncut_refuted, move_order_refuted."
  },
  {
   "property": "C74",
   "status": "proved",
   "theorems": [
    "C74_pipeline_whole",
    "C74_clip_pipeline",
    "C74_move_issue1_two"
   ],
   "note": "Tilings in the order of the axes with every axis cut or of size 1 (see C73)."
  },
  {
   "property": "C75",
   "status": "proved",
   "theorems": [
    "C75_broadcast_tiles_whole",
    "C75_reduce_sum_tiles_whole",
    "C75_reduce_max_tiles",
    "C75_matmul_tiles_whole",
    "C75_broadcast_cut_refuted",
    "C75_reduce_max_first_refuted",
    "C75_matmul_offsets_refuted",
    "C75_matmul_columns_refuted"
   ],
   "note": "The refuted theorems are about the code as it is: the constructor of ReduceMax reads the shape of the whole tensor, and MatMul::GetIOSizesAndOffsets reports the left offsets for the right input."
  },
  {
   "property": "C76",
   "status": "proved",
   "theorems": [
    "C76_permute_tiles_whole",
    "C76_permute_reports",
    "C76_perm_in_step",
    "C76_perm_tiles",
    "C76_permute_steps_refuted",
    "C76_permute_order_refuted",
    "C76_permute_16_refuted"
   ],
   "note": "The refuted theorems are about the code as it is."
  },
  {
   "property": "C77",
   "status": "proved",
   "theorems": [
    "C77_rescale_params_whole",
    "C77_rescale_params_tile",
    "C77_rescale_encoded_whole",
    "C77_prelu_params_whole",
    "C77_prelu_params_tile",
    "C77_prelu_cnt_last",
    "C77_prelu_encoded_whole",
    "C77_rescale_copies_fit",
    "C77_prelu_copies_fit",
    "C77_params_aligned",
    "C77_weights_zp_encoded",
    "C77_zp_encoded",
    "C77_weights_encoded",
    "C77_weights_encoded_holds",
    "C77_weights_refused",
    "C77_rescale_misaligned_refuted",
    "C77_weights_size_refuted",
    "C77_rescale_direct_refuted",
    "C77_prelu_per_tensor_refuted",
    "C77_prelu_first_axis_refuted",
    "C77_weights_view_refuted"
   ],
   "note": "The refuted theorems are about the code as it is."
  },
  {
   "property": "C78",
   "status": "proved",
   "theorems": [
    "C78_fc_encoded_whole",
    "C78_fc_zero_points_refuted"
   ],
   "note": "The refuted theorem is about the code as it is."
  },
  {
   "property": "C79",
   "status": "proved",
   "theorems": [
    "C79_buf_size_exact",
    "C79_buf_dense_exact",
    "C79_buf_size_negative_refuted"
   ],
   "note": "The refuted theorem is about the code as it is."
  },
  {
   "property": "C80",
   "status": "proved",
   "theorems": [
    "C80_dequantize_nearest",
    "C80_dequantize_exact",
    "C80_quantize_close",
    "C80_quantize_dequantize",
    "C80_dequantize_tensor_correct",
    "C80_quantize_tensor_correct",
    "C80_float_roundtrip",
    "C80_quantize_range_refuted",
    "C80_quantize_nearest_refuted",
    "C80_dequantize_scale_refuted"
   ],
   "note": "The refuted theorems are about the code as it is. Uses the axioms of the standard library's Reals."
  },
  {
   "property": "C81",
   "status": "proved",
   "theorems": [
    "C81_pos_increments",
    "C81_ring_positions",
    "C81_ring_tiles",
    "C81_ring_tiles_exact",
    "C81_ring_kernel",
    "C81_ring_ends",
    "C81_ring_handover",
    "C81_ring_dims",
    "C81_plain_dims",
    "C81_ring_stride_refuted",
    "C81_ring_overlap_refuted",
    "C81_ring_many_refuted",
    "C81_plain_dims_refuted"
   ],
   "note": "The refuted theorems are about the code as it is: a stride larger than the kernel, more tiles than the dimension has, and the number of tiles multiplied in once per iteration dimension."
  },
  {
   "property": "C82",
   "status": "proved",
   "theorems": [
    "C82_prepad_starts",
    "C82_prepad_kernel",
    "C82_align_sizes",
    "C82_gran_tiling",
    "C82_gran_strides",
    "C82_override_cuts",
    "C82_extend_same",
    "C82_align_single_refuted",
    "C82_gran_return_refuted",
    "C82_override_order_refuted",
    "C82_extend_done_refuted"
   ],
   "note": "The refuted theorems are about the code as it is: one tile is not aligned, the increment back to the start is rounded the wrong way by ConvertGran, OverrideIncrements takes the dimension by iteration number, and Next with increments never ends after set_config from fewer dimensions."
  },
  {
   "property": "C83",
   "status": "proved",
   "theorems": [
    "C83_clip_params_whole",
    "C83_mm_params_whole",
    "C83_clip_encoded_whole",
    "C83_matmul_encoded_whole",
    "C83_clip_params32_refuted",
    "C83_mm_params_size_refuted",
    "C83_mm_params_alias_refuted"
   ],
   "note": "The refuted theorems are about the code as it is: 32-bit Clip cannot get its limits from EncodeParams, the chained comparison in MatMul_CS::EncodeParams accepts buffers of any equal size, and sources that share the first byte of the destination are overwritten before they are read."
  },
  {
   "property": "C84",
   "status": "proved",
   "theorems": [
    "C84_create_own",
    "C84_create_small",
    "C84_create_only",
    "C84_create_distinct",
    "C84_create_nop_refuted",
    "C84_create_resize_refuted"
   ],
   "note": "The refuted theorems are about the code as it is: Nop_CS reports an object size of 0, with which Create always returns the null pointer, and Create has no case for ResizeBilinear."
  }
 ]
}