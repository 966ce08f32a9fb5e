{
 "claims": [
  {
   "property": "C01",
   "status": "proved",
   "theorems": [
    "C01_quantize_float",
    "C01_quantize_int",
    "C01_quantize_bool"
   ],
   "note": "Float (IEEE patterns incl. -0, NaN, subnormals), any integer element type, bool; AArch64 path: see C03/C04."
  },
  {
   "property": "C02",
   "status": "proved",
   "theorems": [
    "C02_round_trip_float",
    "C02_float_values",
    "C02_dequantize",
    "C02_round_trip_int",
    "C02_float_bits_round_trip",
    "C02_bool_bits_round_trip"
   ],
   "note": "Both directions, float, int, bool."
  },
  {
   "property": "C03",
   "status": "proved",
   "theorems": [
    "C03_int8_array_equals_portable",
    "C03_int8_blocks",
    "C03_int8_quantize_equals_portable"
   ],
   "note": "NEON instruction semantics modelled per instruction (ld2, uzp1/2, sri, sqsub, dup, st1); little-endian. The transcription of the inline assembly is compared mechanically by tools/asm_a64.py."
  },
  {
   "property": "C04",
   "status": "proved",
   "theorems": [
    "C04_float_equals_portable_refuted",
    "C04_float_nan_refuted",
    "C04_float_array_equals_portable",
    "C04_float_quantize_equals_portable",
    "C04_excluded_values",
    "C04_float_records_sign_bits"
   ],
   "note": "False as written: refuted for -0.0 and for NaN with the sign bit set; proved for all inputs without such values (and that the NEON words are the sign bits in every case)."
  },
  {
   "property": "C05",
   "status": "proved",
   "theorems": [
    "C05_packing_ub_refuted",
    "C05_packing_defined_otherwise"
   ],
   "note": "Statement as written is false: refuted with a witness ((1<<31)-1 when cols%32==31 and zero point above max); proved that this is the only undefined case for int8."
  },
  {
   "property": "C06",
   "status": "proved",
   "theorems": [
    "C06_reference_one_padding"
   ],
   "note": ""
  },
  {
   "property": "C07",
   "status": "proved",
   "theorems": [
    "C07_reference_zero_padding"
   ],
   "note": "Even channels per group, as checked by Prepare."
  },
  {
   "property": "C08",
   "status": "proved",
   "theorems": [
    "C08_reference_float"
   ],
   "note": "Exact rational arithmetic."
  },
  {
   "property": "C09",
   "status": "proved",
   "theorems": [
    "C09_reference_int8",
    "C09_round_haz_nearest"
   ],
   "note": "Exact rational arithmetic; round_haz shown to be round-to-nearest, ties away."
  },
  {
   "property": "C10",
   "status": "proved",
   "theorems": [
    "C10_reference_bitpacked"
   ],
   "note": "Stated via the convolution: accum = (K - conv)/2 > t iff 2t < K - conv."
  },
  {
   "property": "C11",
   "status": "proved",
   "theorems": [
    "C11_converter_thresholds",
    "C11_thresholds_fit"
   ],
   "note": "Exact rational arithmetic (the float rounding question is C12); VALID or one-padded SAME convolutions, every activation, every multiplier sign."
  },
  {
   "property": "C12",
   "status": "proved",
   "theorems": [
    "C12_float_thresholds_refuted",
    "C12_float_thresholds_with_margin",
    "C12_float_output_sign_with_margin"
   ],
   "note": "False as written, refuted: with binary32 arithmetic for both the converter's threshold and the runtime's output, 9 taps, multiplier 0x1.12b26ap-2, bias -0x1.e0b83ap+0, accumulator 1 gives different bits. Proved: with binary32 multipliers and biases (zero or normal, at most 2^100) and at most 2^22 taps, every bit the fused program writes is the sign of the exact output r, and of the float32 output the unfused program writes, whenever |r| > 2^-19 (|bias| + taps |mult|); for a zero multiplier always. These two theorems use the classical real number axioms of the standard library (through Flocq)."
  },
  {
   "property": "C13",
   "status": "proved",
   "theorems": [
    "C13_indirect_equals_reference",
    "C13_indirect_is_convolution",
    "C13_indirect_range"
   ],
   "note": "Portable 4x2 kernel; also any even-aligned pixel range. run is any output transform total on the channels."
  },
  {
   "property": "C14",
   "status": "proved",
   "theorems": [
    "C14_indirect_bitpacked_equals_reference"
   ],
   "note": "For any >=3 elements of memory after the thresholds."
  },
  {
   "property": "C15",
   "status": "proved",
   "theorems": [
    "C15_threshold_overread_refuted"
   ],
   "note": "The claim as written is false: refuted with a witness (out_c=1 reads thresholds[1..3])."
  },
  {
   "property": "C16",
   "status": "proved",
   "theorems": [
    "C16_packed_weights",
    "C16_indirection_buffer"
   ],
   "note": "For every block shape (portable 4x2x1 and AArch64 8x4x{1,2,4})."
  },
  {
   "property": "C17",
   "status": "proved",
   "theorems": [
    "C17_bgemm_every_schedule"
   ],
   "note": "Any kernel block sizes, legal schedule, store interleaving, packed-buffer contents; int32 accumulators in Z (see C23 for 16 bit)."
  },
  {
   "property": "C18",
   "status": "proved",
   "theorems": [
    "C18_bgemm_bitpacked_every_schedule"
   ],
   "note": "For LHS kernel widths that are multiples of 32, as in the portable bitpacked kernel."
  },
  {
   "property": "C19",
   "status": "proved",
   "theorems": [
    "C19_bgemm_conv_equals_reference",
    "C19_bgemm_conv_bitpacked_equals_reference"
   ],
   "note": "groups = 1 (the BGEMM kernel supports no groups); geometry as computed by Prepare; im2col routines by contract."
  },
  {
   "property": "C20",
   "status": "proved",
   "theorems": [
    "C20_indirect_zero_padding",
    "C20_bgemm_zero_padding"
   ],
   "note": "Exact rational arithmetic for the float steps; effective filter fits in the input; no fused activation (enforced by Prepare)."
  },
  {
   "property": "C21",
   "status": "proved",
   "theorems": [
    "C21_large_filter_zero_padding_refuted"
   ],
   "note": "Claim as written is false: refuted with a concrete witness (3x3 filter on a 2x2 image, zero SAME padding)."
  },
  {
   "property": "C22",
   "status": "proved",
   "theorems": [
    "C22_indirect_uint16_overflow_refuted",
    "C22_indirect_uint16_safe",
    "C22_selected_kernel_fits_shape"
   ],
   "note": "Claim as written is false: refuted with a witness (1x1 image, 3x3 SAME, 7296 channels); proved when filter taps <= batches*in_h*in_w."
  },
  {
   "property": "C23",
   "status": "proved",
   "theorems": [
    "C23_bgemm_int16_safe",
    "C23_partial_is_accumulator"
   ],
   "note": ""
  },
  {
   "property": "C24",
   "status": "proved",
   "theorems": [
    "C24_maxpool",
    "C24_geometry"
   ],
   "note": "From Prepare to the result, incl. SAME/VALID geometry."
  },
  {
   "property": "C25",
   "status": "proved",
   "theorems": [
    "C25_pool_then_quantize",
    "C25_activation_bounds",
    "C25_relu_refuted"
   ],
   "note": "Proved for no activation and RELU_N1_TO_1 (non-NaN tensors); refuted for RELU and RELU6, which the pattern also accepts. TFLite's float MaxPool is modelled from its documentation."
  },
  {
   "property": "C26",
   "status": "proved",
   "theorems": [
    "C26_output_shape",
    "C26_taps_equal_split",
    "C26_conv_equal_split",
    "C26_slack",
    "C26_stride2_refuted"
   ],
   "note": "Claim as written is false: refuted (4x4 image, 3x3 filter, stride 2, pads 1/1). Proved for stride 1 or whenever the totals split alike; output shape always; slack bounded by stride-1."
  },
  {
   "property": "C27",
   "status": "proved",
   "theorems": [
    "C27_bconv_round_trip",
    "C27_bconv_tanh_refuted",
    "C27_bconv_init_succeeds_iff",
    "C27_bconv_bad_options_rejected",
    "C27_bconv_missing_option_rejected",
    "C27_bmaxpool_round_trip",
    "C27_bmaxpool_prepared",
    "C27_bmaxpool_missing_size_rejected",
    "C27_bmaxpool_missing_padding_refuted"
   ],
   "note": "False as written in two corners, both refuted: the verifier accepts a TANH/SIGN_BIT activation whose options cannot be written, and BMaxPool2D with a missing padding key is silently SAME. The round trip for every other accepted attribute set, and the exact condition under which Init of BConv2D succeeds, are proved. Flexbuffers is modelled as a finite map from keys to ints."
  },
  {
   "property": "C28",
   "status": "proved",
   "theorems": [
    "C28_history_independent",
    "C28_histories_agree"
   ],
   "note": "Interpreter protocol (resize, allocate succeeding or failing, set input, invoke) modelled as event lists; Eval after any history is equivalent to a fresh evaluation. Exact rational arithmetic for the output transform."
  },
  {
   "property": "C29",
   "status": "proved",
   "theorems": [
    "C29_indirect_history_independent",
    "C29_stale_kernel_refuted"
   ],
   "note": "False as written: the kernel object built by the first Invoke is never rebuilt (refuted by a stale shape and by a moved input buffer). Proved when every earlier Invoke saw the current shape and input address."
  },
  {
   "property": "C30",
   "status": "proved",
   "theorems": [
    "C30_int8_bits_round_trip",
    "C30_lowest_zero_point_refuted",
    "C30_large_scale_refuted"
   ],
   "note": "Proved for 0<scale<=2 and zp>-128; refuted outside (zp=-128; scale>2)."
  },
  {
   "property": "C31",
   "status": "proved",
   "theorems": [
    "C31_quantize_fold",
    "C31_dequantize_fold_float",
    "C31_dequantize_fold_int8",
    "C31_double_scale_refuted"
   ],
   "note": "proved for quantize and float dequantize folds as they are, and for the int8 dequantize fold with 1/scale in exact arithmetic; false as written for int8 in IEEE arithmetic: C31_double_scale_refuted (converter divides in double, runtime in float; scale 2/7 gives 4 vs 3)"
  },
  {
   "property": "C32",
   "status": "proved",
   "theorems": [
    "C32_greater_equal",
    "C32_greater_equal_zero",
    "C32_less_equal",
    "C32_patterns",
    "C32_patterns_valid",
    "C32_nan_refuted"
   ],
   "note": "All non-NaN binary32 values incl. infinities, subnormals, overflow; NaN shown to differ."
  },
  {
   "property": "C33",
   "status": "proved",
   "theorems": [
    "C33_select",
    "C33_select_negated",
    "C33_replacement",
    "C33_sign_sign_iff",
    "C33_any_constant_refuted"
   ],
   "note": "select patterns proved; Sign(Sign(x)+c) proved equivalent exactly when 0<c<1, refuted for the arbitrary c the pattern accepts."
  },
  {
   "property": "C34",
   "status": "proved",
   "theorems": [
    "C34_binary_filter_exact",
    "C34_binary_filter_error",
    "C34_check_complete",
    "C34_accepted_not_exact_refuted"
   ],
   "note": "false as written for every accepted filter (0.005 tolerance): C34_accepted_not_exact_refuted; proved exact for filters that are exactly binary, and within taps*0.005*|scale| for every accepted filter; exact arithmetic"
  },
  {
   "property": "C35",
   "status": "proved",
   "theorems": [
    "C35_fuse_add_sub",
    "C35_fuse_mul_div",
    "C35_fuse_activation",
    "C35_activation_guard_needed"
   ],
   "note": "exact arithmetic; constant operand is a scalar or per-channel vector (higher ranks are rejected by the runtime's Prepare)"
  },
  {
   "property": "C36",
   "status": "proved",
   "theorems": [
    "C36_references_follow_tensors",
    "C36_removal_preserves_meaning",
    "C36_modify_io_meaning",
    "C36_codes",
    "C36_strip_lce_meaning",
    "C36_second_signature_refuted",
    "C36_other_subgraph_refuted"
   ],
   "note": "False as written for models with more than one SignatureDef or subgraph: refuted (only the first signature is renumbered, and it is renumbered for every subgraph). Proved for everything else, with the evaluation meaning of modify_integer_quantized_model_io_type and strip_lcedequantize_ops."
  },
  {
   "property": "C37",
   "status": "proved",
   "theorems": [
    "C37_second_consumer_refuted",
    "C37_dangling_refuted",
    "C37_two_quantizers_refuted",
    "C37_sole_use"
   ],
   "note": "False as written: refuted (second consumer of a removed tensor; dangling index in the fast path; an input quantised twice). Proved when the removed tensors have no other use."
  },
  {
   "property": "C38",
   "status": "proved",
   "theorems": [
    "C38_prepare_sound",
    "C38_accepted_nodes_evaluate",
    "C38_input_depth_unchecked_refuted",
    "C38_zero_filter_depth_refuted",
    "C38_missing_multiplier_refuted"
   ],
   "note": "Proved for accepted nodes whose input has the announced depth, with every kernel, up to the mathematical result. Parts false as written are refuted: input depth is not checked, filter depth 0 divides by zero in Prepare, bitpacked SAME-zero node without multiplier is accepted by the reference kernel."
  },
  {
   "property": "C39",
   "status": "proved",
   "theorems": [
    "C39_same",
    "C39_same_windows_meet_image",
    "C39_same_out_ceil",
    "C39_valid",
    "C39_valid_filter_too_big"
   ],
   "note": ""
  },
  {
   "property": "C40",
   "status": "proved",
   "theorems": [
    "C40_registration",
    "C40_programs"
   ],
   "note": "All flag combinations, any previous resolver content."
  },
  {
   "property": "C41",
   "status": "proved",
   "theorems": [
    "C41_set_batch_size"
   ],
   "note": ""
  },
  {
   "property": "C42",
   "status": "proved",
   "theorems": [
    "C42_predict_concatenates",
    "C42_samples_of_array",
    "C42_samples_of_list",
    "C42_samples_of_iterator",
    "C42_predict_rejects",
    "C42_zero_samples_refuted",
    "C42_unequal_rows_refuted"
   ],
   "note": "False as written: refuted for zero samples (IndexError) and for list inputs with unequal numbers of rows (truncated, not rejected). Proved for one or more samples and equal rows, with any stateful model; wrong type, shape or number of inputs is always rejected."
  },
  {
   "property": "C43",
   "status": "proved",
   "theorems": [
    "C43_groups_agree",
    "C43_inferred_groups_consistent"
   ],
   "note": "Static channel counts (dynamic sizes excluded)."
  },
  {
   "property": "C44",
   "status": "proved",
   "theorems": [
    "C44_quantize_after_dequantize",
    "C44_quantize_after_dequantize_float32"
   ],
   "note": "for all packed tensors, scales and zero points, in exact arithmetic and, for every positive finite float32 scale, with the single-precision division of both programs"
  },
  {
   "property": "C45",
   "status": "proved",
   "theorems": [
    "C45_quantize_of_int8",
    "C45_quantize_of_int8_double",
    "C45_quantize_of_int8_single"
   ],
   "note": "for all int8 tensors: dequantisation in exact arithmetic, and for every positive finite float32 scale in IEEE arithmetic (product in double then cast, or in single precision)"
  },
  {
   "property": "C46",
   "status": "proved",
   "theorems": [
    "C46_quantize_of_bconv",
    "C46_tie_refuted",
    "C46_quantize_of_bconv_float32",
    "C46_near_tie_refuted"
   ],
   "note": "false as written: refuted by C46_tie_refuted (exact ties) and, in IEEE arithmetic away from exact ties, by C46_near_tie_refuted (100 against 101); proved equal except by one at exact ties that the zero point moves across zero; in IEEE arithmetic (C46_quantize_of_bconv_float32): never more than one apart, and equal unless the exact value is within about 2^-20 of its magnitude of a half-integer"
  },
  {
   "property": "C47",
   "status": "proved",
   "theorems": [
    "C47_invoke_correct_after_any_history",
    "C47_invoke_correct_indirect"
   ],
   "note": "Combines C28/C29/C38 with the per-kernel theorems; exact rational arithmetic."
  },
  {
   "property": "C48",
   "status": "proved",
   "theorems": [
    "C48_asm_4x4_equals_portable"
   ],
   "note": "Instruction-level model of the 4x4 kernel (float and int8); the int8 conversion is the fcvtns instruction on both sides."
  },
  {
   "property": "C49",
   "status": "proved",
   "theorems": [
    "C49_bgemm_asm_4x4"
   ],
   "note": ""
  },
  {
   "property": "C50",
   "status": "proved",
   "theorems": [
    "C50_streaming_equals_portable",
    "C50_streaming_refuted"
   ],
   "note": "False as written: refuted at depth 12 (over-accumulates); proved for depth 4 and for multiples of 8 from 16 on."
  },
  {
   "property": "C51",
   "status": "proved",
   "theorems": [
    "C51_asm_8x4_is_16_bit_portable",
    "C51_asm_8x4_equals_portable"
   ],
   "note": "Instruction-level model of the 8x4 kernel (float, int8)."
  },
  {
   "property": "C52",
   "status": "proved",
   "theorems": [
    "C52_bgemm_asm_8x4"
   ],
   "note": ""
  },
  {
   "property": "C53",
   "status": "proved",
   "theorems": [
    "C53_bgemm_asm_8x4_bitpacked"
   ],
   "note": "The thresholds array must cover the row count rounded up to 8 (see C55)."
  },
  {
   "property": "C54",
   "status": "proved",
   "theorems": [
    "C54_conv_asm_8x4",
    "C54_conv_asm_8x4_bitpacked",
    "C54_conv_asm_4x4",
    "C54_conv_asm_4x4_streaming"
   ],
   "note": "The 4x4 theorems: without MAX_STREAMING for all depths, with it for the depths at which C50 holds; per-channel arrays long enough (see C55)."
  },
  {
   "property": "C55",
   "status": "proved",
   "theorems": [
    "C55_4x4_reads_in_bounds",
    "C55_8x4_reads_in_bounds",
    "C55_8x4_bitpacked_reads_in_bounds",
    "C55_8x4_over_read_refuted"
   ],
   "note": "False as written: refuted for the 8x4 kernel when out_c mod 8 is 1, 2 or 3 (multipliers, biases) or not 0 (thresholds); proved in all other cases."
  },
  {
   "property": "C56",
   "status": "proved",
   "theorems": [
    "C56_indirect_asm_is_16_bit",
    "C56_indirect_asm_equals_reference",
    "C56_indirect_asm_small_filter",
    "C56_indirect_asm_valid",
    "C56_indirect_asm_overflow_refuted"
   ],
   "note": "False as written: refuted when an accumulator exceeds 65535 (filter with more taps than the input has pixels, see C22): the result is taken modulo 2^16, proved for all cases. Equality proved when the filter has no more taps than the input has pixels, always with VALID padding, and whenever the accumulators fit. Per-channel arrays and over-read memory as in C57. The SAME-zero correction that follows is C20."
  },
  {
   "property": "C57",
   "status": "proved",
   "theorems": [
    "C57_indirect_asm_reads_in_bounds",
    "C57_indirect_asm_grouped_reads",
    "C57_indirect_asm_over_read_refuted"
   ],
   "note": "False as written: refuted (a) when the last block has 1, 2 or 3 channels (multiplier and bias arrays), (b) for grouped convolutions (input tensor, one depth block past the end); proved in all other cases."
  },
  {
   "property": "C58",
   "status": "proved",
   "theorems": [
    "C58_asm_arm32_equals_portable"
   ],
   "note": ""
  },
  {
   "property": "C59",
   "status": "proved",
   "theorems": [
    "C59_bgemm_arm32"
   ],
   "note": ""
  },
  {
   "property": "C60",
   "status": "proved",
   "theorems": [
    "C60_arm32_int8_rounding",
    "C60_nearest_refuted"
   ],
   "note": "False as written: refuted for a float result of -0.5009765625 (0 is stored; -1 is nearest). Proved: nearest exactly when the result is not negative with a fraction in (1/2, 1/2 + 1/256) above -128; always within 1/2 + 1/256."
  },
  {
   "property": "C61",
   "status": "proved",
   "theorems": [
    "C61_aarch64_int8_rounding",
    "C61_ties_refuted"
   ],
   "note": "The second half is false as written: on a tie (0.5) the assembly rounds to even, the portable kernel away from zero (the source allows any tie handling). Proved: always nearest, and equal to the portable result when not a tie."
  },
  {
   "property": "C62",
   "status": "proved",
   "theorems": [
    "C62_float_output_accuracy"
   ],
   "note": "For the reference kernel with IEEE binary64 setup and binary32 transform (SpecFloat); the optimised kernels write the same values (C13, C19, C51-C57) except for the float zero-padding correction. Uses the standard library's real number axioms through Flocq."
  },
  {
   "property": "C63",
   "status": "proved",
   "theorems": [
    "C63_int8_output_accuracy"
   ],
   "note": "As C62; the C++ conversion of an out-of-range rounded float to int32 is undefined, the theorem says when that cannot happen. Uses the standard library's real number axioms through Flocq."
  },
  {
   "property": "C64",
   "status": "proved",
   "theorems": [
    "C64_any_rewriting_order",
    "C64_refuted_per_pixel_bias",
    "C64_refuted_multiplier_shape"
   ],
   "note": "False as written: refuted by C64_refuted_per_pixel_bias and C64_refuted_multiplier_shape (the patterns do not check shapes before fusing). Proved for programs whose initial operations satisfy tame: constants combined with computed tensors are scalars or vectors that do not enlarge them, binary filters hold +1/-1, max pooling before quantise has no activation or RELU_N1_TO_1 (the other activations are C25's finding). Exact arithmetic; the float rounding of folded constants is C12/C62."
  },
  {
   "property": "C65",
   "status": "proved",
   "theorems": [
    "C65_rewriting_ends"
   ],
   "note": "For the patterns exactly as they are, no condition on the program but SSA form."
  },
  {
   "property": "C66",
   "status": "proved",
   "theorems": [
    "C66_any_rewriting_order",
    "C66_refuted_sign_shift",
    "C66_refuted_vector_condition",
    "C66_refuted_nearly_binary",
    "C66_refuted_strided_padding"
   ],
   "note": "False as written: refuted four times (Sign(Sign(x)+2); tf.Select with a vector condition; a nearly binary filter; stride 2 with symmetric padding). Proved for programs satisfying `sane`: in those four situations the constants, shapes, filters and paddings are the expected ones. Numbers are exact; static shapes are those of the run; ConvertTFDilatedConvOp (TensorFlow's) and the merging of equal constants are not modelled."
  },
  {
   "property": "C67",
   "status": "proved",
   "theorems": [
    "C67_rewriting_ends"
   ],
   "note": "ConvertTFDilatedConvOp, which the pass runs among its own patterns, and the merging of equal constants are TensorFlow's and MLIR's and not modelled here; C78, C81 and C82 allow them between any two of the pass's own steps."
  },
  {
   "property": "C68",
   "status": "proved",
   "theorems": [
    "C68_machine_computes_the_graph",
    "C68_converted_model_computes_the_graph",
    "C68_builtins_exist",
    "C68_values_have_buffers",
    "C68_zero_padding_accepted"
   ],
   "note": "For graphs that meet the conditions of C66 (sane) and of C64 (calm, asked of the original graph) and whose convolutions fit the kernel's limits (fits_machine: positive sizes, accumulators below 2^31, zero padding accepted by the kernel; the weights have been folded to constants). TFLite's builtins are assumed to do what the operator says; float arithmetic is exact."
  },
  {
   "property": "C69",
   "status": "proved",
   "theorems": [
    "C69_any_order",
    "C69_stride_one",
    "C69_terminates",
    "C69_stride2_refuted",
    "C69_whole_chain"
   ],
   "note": "False as written: refuted (C69_stride2_refuted: a 3x3 convolution with stride 2 on an image padded by one on each side); proved when the padding that is fused splits as SAME padding does (fuse_sane), which always holds with stride 1 (C69_stride_one). In C69_whole_chain what TensorFlow's own passes do between preparation and optimisation is a hypothesis."
  },
  {
   "property": "C70",
   "status": "proved",
   "theorems": [
    "C70_conv_arm32_float",
    "C70_conv_arm32_int8",
    "C70_conv_aarch64_int8"
   ],
   "note": "groups = 1, VALID or one-padded SAME; per-channel arrays long enough (C55). Depth below 2^22 words."
  },
  {
   "property": "C71",
   "status": "proved",
   "theorems": [
    "C71_indirect_accuracy",
    "C71_bgemm_accuracy",
    "C71_kernels_agree",
    "C71_same_sign_refuted"
   ],
   "note": "binary32 setup, output transform, correction cache and correction with Flocq-verified rounding; optimised and reference kernels within 3*2^-21 of the magnitude; bit and sign equality refuted (C71_same_sign_refuted). FMA contraction is not modelled."
  },
  {
   "property": "C72",
   "status": "proved",
   "theorems": [
    "C72_file_round_trip",
    "C72_other_custom_operators_kept",
    "C72_file_computes_the_program",
    "C72_model_file_computes_the_graph"
   ],
   "note": "Builtin TFLite operators are a parameter (assumed to do what IR.v says); flexbuffers is modelled as a map; the float constant of a packed filter stays in the modelled file."
  },
  {
   "property": "C73",
   "status": "proved",
   "theorems": [
    "C73_quantise_pass",
    "C73_no_pairs",
    "C73_quantise_terminates",
    "C73_parameters_refuted",
    "C73_order_refuted"
   ],
   "note": "False as written: refuted where a parameter pair really rounds and the claim is read without leaving pairs out (C73_parameters_refuted), and where a parameter is a quantised LceDequantize (C73_order_refuted: the result depends on the order); proved when no parameter is a quantised convolution result or LceDequantize and no quantised convolution output is a tie moved across zero by the zero point (C46). int8, one scale per tensor, exact arithmetic; requantisation of int8 tensors is not modelled."
  },
  {
   "property": "C74",
   "status": "proved",
   "theorems": [
    "C74_machine_computes_quantised_program",
    "C74_quantised_model_computes_the_graph",
    "C74_results_are_int8"
   ],
   "note": "Under C73's conditions (no parameter matching two patterns, no exact ties crossing zero), builtins assumed to do what IR.v says, filters constant, sizes in the ranges the kernels need; the optimised kernels reject zero padding with int8 output."
  },
  {
   "property": "C75",
   "status": "proved",
   "theorems": [
    "C75_input_count",
    "C75_saved_rejects",
    "C75_keras_rejects",
    "C75_saved_model",
    "C75_pipeline_calls",
    "C75_graphdef",
    "C75_keras",
    "C75_types_by_position",
    "C75_requested_types",
    "C75_int8_request_refuted",
    "C75_mixed_inputs_refuted"
   ],
   "note": "False as written: refuted for a Keras model the pipeline does not quantise (the error about the impossible int8 request is swallowed and a float32 model returned) and for a model only some of whose inputs are quantised (the others stay float32 silently). Proved: rejection, the pipeline's arguments, the choice of path and shapes for all models and backends; int8 wherever the pipeline quantised the input or output, on models the retyping can work on (C36's conditions)."
  },
  {
   "property": "C76",
   "status": "proved",
   "theorems": [
    "C76_any_order",
    "C76_terminates",
    "C76_types",
    "C76_no_abort",
    "C76_complete",
    "C76_half_float_refuted"
   ],
   "note": "False as written: refuted when a Dequantize reads float16 (or per-axis) data: float16 scores make the cast abort, float16 boxes are handed to the operator as they are. Proved for all graphs when every Dequantize reads per-tensor int8 data; results, types, termination and effects for all graphs. The agreement of the integer kernel with the float kernel is a hypothesis (neither is in this repository)."
  },
  {
   "property": "C77",
   "status": "proved",
   "theorems": [
    "C77_file_round_trip",
    "C77_file_computes_the_quantised_program",
    "C77_quantised_model_file_computes_the_graph"
   ],
   "note": "Under C73's and C74's conditions; the tensor table is part of the file (schema: Tensor.quantization), written by TensorFlow's exporter, which is assumed to store each value's type with its tensor."
  },
  {
   "property": "C78",
   "status": "proved",
   "theorems": [
    "C78_pipeline",
    "C78_order",
    "C78_error_budget",
    "C78_exact",
    "C78_interleaved",
    "C78_converted_file_computes_the_model"
   ],
   "note": "Each LCE pass is asked to find the conditions of its own claim (C64, C66, C69, C73) in the program it is given. The detection pass works on operators with several results, which are modelled separately (C76). TensorFlow's pattern for dilated convolutions and the merging of equal constants may happen between any two steps of a pattern pass (`interleaved`)."
  },
  {
   "property": "C79",
   "status": "proved",
   "theorems": [
    "C79_fma32_is_ieee",
    "C79_fma64_is_ieee",
    "C79_float_reference",
    "C79_int8_reference",
    "C79_float_indirect",
    "C79_float_bgemm",
    "C79_builds_agree",
    "C79_unfused",
    "C79_bit_identical_refuted"
   ],
   "note": "Bit-identity is false as a user might expect it: refuted by C79_bit_identical_refuted; the accuracy claim is proved for every choice. The fused operation is proved equal to Flocq's on all data."
  },
  {
   "property": "C80",
   "status": "proved",
   "theorems": [
    "C80_reported_is_accepted",
    "C80_results_as_reported",
    "C80_types_reported",
    "C80_scales_from_the_file",
    "C80_scales_refused",
    "C80_zero_points_from_the_file",
    "C80_common_zero_point_refuted"
   ],
   "note": "False as written for the last sentence: refuted by C80_common_zero_point_refuted (zero points of several channels are reported only if all are 0); the rest proved. String inputs are left out (their size is not fixed)."
  },
  {
   "property": "C81",
   "status": "proved",
   "theorems": [
    "C81_old_control_flow_refused",
    "C81_success",
    "C81_complete",
    "C81_bytes",
    "C81_stops_at_failure",
    "C81_export",
    "C81_returned_file_keeps_results",
    "C81_names",
    "C81_silent_failure_refuted"
   ],
   "note": "False as written in one case: refuted by C81_silent_failure_refuted (a pass before variable freezing that fails without an error message gives status OK and empty bytes); C81_success lists that case exactly, and C81_bytes proves the claim when those passes say why they fail. The verifier, the translation and TensorFlow's status handler are by contract."
  },
  {
   "property": "C82",
   "status": "proved",
   "theorems": [
    "C82_predict_computes_the_model"
   ],
   "note": "Composition of C78, C77 and C80. The interpreter's Invoke (TensorFlow Lite) enters by its contract: started with the inputs' buffers it leaves in the outputs what some execution of the file's operators leaves there, and keeps types and dimensions. How tensors store values (endianness, rounding) is a parameter. The case runs a converted quantiser on bytes: predict([-1.0, 3.0]) is the packed word 1."
  },
  {
   "property": "C83",
   "status": "proved",
   "theorems": [
    "C83_bitpacked_same_words",
    "C83_invoke_aarch64"
   ],
   "note": "A composition of C10, C14, C19 and C54 (one- or VALID-padding; no groups for the matrix product); C83_invoke_aarch64 puts it after C47's histories (C38, C54). Float outputs: C84, and C79 when the compiler fuses operations."
  },
  {
   "property": "C84",
   "status": "proved",
   "theorems": [
    "C84_aarch64_8x4",
    "C84_aarch64_4x4",
    "C84_arm32",
    "C84_accuracy",
    "C84_zero_padding",
    "C84_zero_padding_4x4",
    "C84_zero_padding_arm32",
    "C84_invoke_aarch64",
    "C84_int8_8x4",
    "C84_int8_4x4"
   ],
   "note": "No groups. With zero padding C84_zero_padding, _4x4, _arm32: the assembly followed by the C++ correction gives what the indirect kernel gives (C71 has the bound); the history theorem is for one or VALID padding. The arithmetic of the kernels is binary32, round to nearest even, with subnormals (32-bit Arm's NEON flushes them to zero: not modelled) and one NaN pattern. The reference kernel and the setup are compiled without fused operations (C79 has the bound with them). The float value of C84_int8_8x4 and C84_int8_4x4 is what the output transform computes before its conversion to int8. Int8 on 32-bit Arm: C70; accuracy of int8: C61."
  }
 ]
}