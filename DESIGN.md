# Formal model of larq/compute-engine in Rocq (Coq 8.16.1)

This file is generated by `tools/design.py` from `tools/design_template.md`,
`properties.jsonl` and `MANIFEST.json`.

## Method

* Memory is explicit: an array is a `list`, a read or write outside it makes the
  whole computation `None`. C++ loops become `for_` (a fold over an interval in
  the option monad). A theorem `exists out, f .. = Some out /\ ...` is therefore
  total correctness: no out-of-bounds access, plus the value.
* `theories/Spec.v` is the independent specification (+1/-1 values, integer
  convolution, max pooling, SAME/VALID geometry). It uses no helper of the model.
* Float data are treated in one of three ways, said in each theorem:
  (a) parametrically: the float operations are arguments, so two kernels applying
  the same operations give bitwise the same result for any interpretation;
  (b) exactly, in the rationals Q; (c) bit-exactly as IEEE binary32/64 with the
  standard library's `SpecFloat`.
* Words (`TBitpacked`, int32) are represented by their unsigned 32-bit value.
* Threads: a task that only reads read-only memory is described by the list of
  its stores; `Log.concurrently` is the set of all interleavings of such lists.
* Inline assembly: an instruction-level machine (`A64.v`: 32 vector registers as
  byte lists, general registers holding ints or region pointers, flags, a store
  log, a 256-byte scratch buffer) with an out-of-bounds access being a fault.
  The programs are transcribed instruction by instruction (`A64Bgemm.v`,
  `A64Ind.v`, `BitpackA64.v`, `A32.v` for 32-bit Arm); `tools/asm_bgemm.py`, `tools/asm_ind.py`,
  `tools/asm_arm32.py` and `tools/asm_a64.py` extract the
  instructions from the C++ source and compare them with the Coq text.
* Property theorems live in `Prop_*.v`, named `Cnn_...`, each followed by
  `Print Assumptions` and by `Example`s showing its hypotheses are met by a
  concrete case. A claim that the unchanged code violates has a theorem
  `Cnn_..._refuted` (a witness), next to a positive theorem with the exact
  condition under which it does hold. In `MANIFEST.json` such a claim has status
  `proved` and a note that begins "False as written" or says so.

## Properties, models, proofs

| id | property | model | proof method | theorems |
|----|----------|-------|--------------|----------|
| C01 | Bit-packing records exactly the sign of every element | Bitpack.v, Float32.v, Quantize.v | loop invariants over rows/words; one-word bit lemma | `C01_quantize_float`, `C01_quantize_int`, `C01_quantize_bool` |
| C02 | Dequantize after quantize gives the sign of every element | Bitpack.v, Quantize.v | composition of pack and unpack invariants | `C02_round_trip_float`, `C02_float_values`, `C02_dequantize`, `C02_round_trip_int`, `C02_float_bits_round_trip`, `C02_bool_bits_round_trip` |
| C03 | Vectorised int8 packing equals portable packing | BitpackA64.v (instruction by instruction) | lane lemmas, loop invariant of the software pipeline | `C03_int8_array_equals_portable`, `C03_int8_blocks`, `C03_int8_quantize_equals_portable` |
| C04 | Vectorised float packing equals portable packing | BitpackA64.v | as C03; refuted on -0.0 and negative NaN | `C04_float_equals_portable_refuted`, `C04_float_nan_refuted`, `C04_float_array_equals_portable`, `C04_float_quantize_equals_portable`, `C04_excluded_values`, `C04_float_records_sign_bits` |
| C05 | Packing never executes undefined behaviour | Bitpack.v with `1<<31` undefined | case analysis; witness | `C05_packing_ub_refuted`, `C05_packing_defined_otherwise` |
| C06 | Reference binary convolution is the +1/-1 convolution (valid or one-padding) | Reference.v | loop invariants, refinement to Spec.conv | `C06_reference_one_padding` |
| C07 | Reference binary convolution with zero padding | Reference.v | as C06, zero padding | `C07_reference_zero_padding` |
| C08 | Float output is post_mul*activation(conv)+post_bias | Reference.v, OutputTransform.v | refinement + algebra on Q | `C08_reference_float` |
| C09 | Int8 output is the quantised float output | Reference.v, OutputTransform.v | refinement + rounding lemma | `C09_reference_int8`, `C09_round_haz_nearest` |
| C10 | Bitpacked output of the reference kernel | Reference.v, OutputTransform.v | refinement, bit lemma | `C10_reference_bitpacked` |
| C11 | Converter thresholds make bitpacked output equal the sign of the float output | Threshold.v | rational arithmetic, case analysis on multiplier sign and activation | `C11_converter_thresholds`, `C11_thresholds_fit` |
| C12 | Converter thresholds are exact in floating point | ThresholdFloat.v (IEEE binary32 via SpecFloat); FlocqBridge.v, ThresholdMargin.v, ThresholdConv.v (error analysis) | witness by computation; forward error analysis in the reals with Flocq, transferred back to the rationals | `C12_float_thresholds_refuted`, `C12_float_thresholds_with_margin`, `C12_float_output_sign_with_margin` |
| C13 | Indirect BGEMM float/int8 kernel equals the reference kernel | Indirect.v, IndirectPack/Buf/Run/Top.v | pointer and loop invariants, refinement to Reference | `C13_indirect_equals_reference`, `C13_indirect_is_convolution`, `C13_indirect_range` |
| C14 | Indirect BGEMM bitpacked kernel equals the reference kernel | as C13 | as C13 | `C14_indirect_bitpacked_equals_reference` |
| C15 | The bitpacked indirect kernel reads only inside the threshold array | Indirect.v | witness: the model fails (None) when the array ends at out_c | `C15_threshold_overread_refuted` |
| C16 | Weight packing and indirection buffer are faithful | IndirectPack.v, IndirectBuf.v | index arithmetic invariants | `C16_packed_weights`, `C16_indirection_buffer` |
| C17 | BGEMM equals the mathematical product for every block schedule | Bgemm.v, Log.v, BgemmProofs.v | frame lemma per block; any interleaving of store logs | `C17_bgemm_every_schedule` |
| C18 | BGEMM bitpacked output for every block schedule | Bgemm.v, Log.v, BgemmProofs.v | as C17 with word-level footprints | `C18_bgemm_bitpacked_every_schedule` |
| C19 | BGEMM-based convolution equals the reference kernel | BgemmConv.v | im2col contract + C17/C18 | `C19_bgemm_conv_equals_reference`, `C19_bgemm_conv_bitpacked_equals_reference` |
| C20 | Zero-padding correction makes the optimised float kernels equal the reference | ZeroPad.v | cache-to-window geometry lemma, algebra | `C20_indirect_zero_padding`, `C20_bgemm_zero_padding` |
| C21 | Zero-padding correction for filters larger than the input | ZeroPad.v | witness | `C21_large_filter_zero_padding_refuted` |
| C22 | 16-bit accumulators never overflow when selected (indirect) | Select.v | popcount bounds; witness | `C22_indirect_uint16_overflow_refuted`, `C22_indirect_uint16_safe`, `C22_selected_kernel_fits_shape` |
| C23 | 16-bit accumulators never overflow when selected (BGEMM) | Select.v | popcount bounds on every partial sum | `C23_bgemm_int16_safe`, `C23_partial_is_accumulator` |
| C24 | Binary max pooling is max pooling of +1/-1 values | MaxPool.v, Padding.v | loop invariants | `C24_maxpool`, `C24_geometry` |
| C25 | Moving quantisation before max pooling preserves results | ConvPool.v, FloatOrder.v | order lemmas on binary32; witness | `C25_pool_then_quantize`, `C25_activation_bounds`, `C25_relu_refuted` |
| C26 | Fusing explicit padding into a convolution preserves the result | FusePad.v, Padding.v | index arithmetic; witness | `C26_output_shape`, `C26_taps_equal_split`, `C26_conv_equal_split`, `C26_slack`, `C26_stride2_refuted` |
| C27 | Operator options written by the converter are read back unchanged by the runtime | Options.v | finite-map round trip; witnesses | `C27_bconv_round_trip`, `C27_bconv_tanh_refuted`, `C27_bconv_init_succeeds_iff`, `C27_bconv_bad_options_rejected`, `C27_bconv_missing_option_rejected`, `C27_bmaxpool_round_trip`, `C27_bmaxpool_prepared`, `C27_bmaxpool_missing_size_rejected`, `C27_bmaxpool_missing_padding_refuted` |
| C28 | Results do not depend on the history of Prepare/Eval calls | Lifecycle.v | state invariant over event lists | `C28_history_independent`, `C28_histories_agree` |
| C29 | Indirect kernel results do not depend on history | Lifecycle.v | state invariant; witnesses | `C29_indirect_history_independent`, `C29_stale_kernel_refuted` |
| C30 | Int8 dequantize then quantize returns the same bits | Quantize.v | rational arithmetic; witnesses | `C30_int8_bits_round_trip`, `C30_lowest_zero_point_refuted`, `C30_large_scale_refuted` |
| C31 | Converter constant folding agrees with the runtime kernels | ConvFold.v | refinement; witness in IEEE arithmetic | `C31_quantize_fold`, `C31_dequantize_fold_float`, `C31_dequantize_fold_int8`, `C31_double_scale_refuted` |
| C32 | Comparison rewrites before quantisation preserve every bit | ConvSign.v, FloatOrder.v | sign of an IEEE difference | `C32_greater_equal`, `C32_greater_equal_zero`, `C32_less_equal`, `C32_patterns`, `C32_patterns_valid`, `C32_nan_refuted` |
| C33 | Sign-pattern rewrites in the converter preserve results | ConvSign.v | case analysis on order; witness | `C33_select`, `C33_select_negated`, `C33_replacement`, `C33_sign_sign_iff`, `C33_any_constant_refuted` |
| C34 | Recognising a binary convolution preserves its result | ConvBinary.v | rational arithmetic; witness | `C34_binary_filter_exact`, `C34_binary_filter_error`, `C34_check_complete`, `C34_accepted_not_exact_refuted` |
| C35 | Fusing add/sub/mul/div/activation into the binary convolution preserves results | ConvBinary.v | rational arithmetic | `C35_fuse_add_sub`, `C35_fuse_mul_div`, `C35_fuse_activation`, `C35_activation_guard_needed` |
| C36 | Removing tensors when stripping I/O quantisation keeps the graph meaning | GraphUtil.v, GraphProofs.v, GraphTop.v | evaluation semantics of subgraphs, induction on operator lists | `C36_references_follow_tensors`, `C36_removal_preserves_meaning`, `C36_modify_io_meaning`, `C36_codes`, `C36_strip_lce_meaning`, `C36_second_signature_refuted`, `C36_other_subgraph_refuted` |
| C37 | Removed tensors are never still referenced | as C36 | witnesses; use-def lemma | `C37_second_consumer_refuted`, `C37_dangling_refuted`, `C37_two_quantizers_refuted`, `C37_sole_use` |
| C38 | Accepted shapes are consistent: output shape and element counts | Prepare.v, EndToEnd.v | inversion of Prepare, composition | `C38_prepare_sound`, `C38_accepted_nodes_evaluate`, `C38_input_depth_unchecked_refuted`, `C38_zero_filter_depth_refuted`, `C38_missing_multiplier_refuted` |
| C39 | SAME/VALID geometry covers the image | Padding.v | division arithmetic | `C39_same`, `C39_same_windows_meet_image`, `C39_same_out_ceil`, `C39_valid`, `C39_valid_filter_too_big` |
| C40 | Kernel registration picks the documented implementation | Misc.v | case analysis over flags, map lemmas | `C40_registration`, `C40_programs` |
| C41 | Setting the batch size only changes the batch dimension | Misc.v | induction over shapes | `C41_set_batch_size` |
| C42 | predict on a batch equals per-sample execution | Misc.v | induction over samples; witnesses | `C42_predict_concatenates`, `C42_samples_of_array`, `C42_samples_of_list`, `C42_samples_of_iterator`, `C42_predict_rejects`, `C42_zero_samples_refuted`, `C42_unequal_rows_refuted` |
| C43 | Group inference agrees between converter and runtime | Prepare.v | case analysis | `C43_groups_agree`, `C43_inferred_groups_consistent` |
| C44 | Quantising a dequantised binary tensor | ConvFold.v, FloatDequant.v | composition; IEEE division is odd | `C44_quantize_after_dequantize`, `C44_quantize_after_dequantize_float32` |
| C45 | Binarising a dequantised int8 tensor | ConvFold.v, FloatDequant.v | rational arithmetic; rounding keeps the sign of a non-zero product (Flocq) | `C45_quantize_of_int8`, `C45_quantize_of_int8_double`, `C45_quantize_of_int8_single` |
| C46 | Quantising the output of a float binary convolution | ConvFold.v, FloatFuse.v | rational arithmetic; witness | `C46_quantize_of_bconv`, `C46_tie_refuted`, `C46_quantize_of_bconv_float32`, `C46_near_tie_refuted` |
| C47 | Invoke returns the mathematical result after any history | EndToEnd.v, Lifecycle.v | composition | `C47_invoke_correct_after_any_history`, `C47_invoke_correct_indirect` |
| C48 | The AArch64 4x4 binary GEMM kernel stores what the portable kernel stores | A64.v (ISA), A64Bgemm.v (program), A64*44.v | CPS weakest-precondition lemmas; invariant over blocks | `C48_asm_4x4_equals_portable` |
| C49 | Binary GEMM through the AArch64 4x4 kernel is correct | A64Rel.v | C48 + C17 | `C49_bgemm_asm_4x4` |
| C50 | The streaming variant of the 4x4 kernel computes the same result | A64Stream44.v | as C48; witness | `C50_streaming_equals_portable`, `C50_streaming_refuted` |
| C51 | The AArch64 8x4 binary GEMM kernel is the portable kernel with 16-bit accumulators | A64Acc84.v … A64Val84.v | as C48, with 16-bit lanes | `C51_asm_8x4_is_16_bit_portable`, `C51_asm_8x4_equals_portable` |
| C52 | Binary GEMM through the AArch64 8x4 kernel is correct | A64Rel.v | C51 + C17 | `C52_bgemm_asm_8x4` |
| C53 | Bit-packed output of the AArch64 8x4 kernel | A64Bits84.v, A64BitsW84.v, A64RelBits.v | byte footprints, any interleaving | `C53_bgemm_asm_8x4_bitpacked` |
| C54 | The optimised convolution on AArch64 writes what the reference convolution writes | A64Conv.v | im2col contract + C52/C53 + C23 bound | `C54_conv_asm_8x4`, `C54_conv_asm_8x4_bitpacked`, `C54_conv_asm_4x4`, `C54_conv_asm_4x4_streaming` |
| C55 | The AArch64 kernels read per-channel arrays in bounds | Prop_A64b.v | C48/C51; witness: no run completes | `C55_4x4_reads_in_bounds`, `C55_8x4_reads_in_bounds`, `C55_8x4_bitpacked_reads_in_bounds`, `C55_8x4_over_read_refuted` |
| C56 | The AArch64 indirect kernels write what the reference convolution writes | Prop_A64Ind.v | instruction-level model of all 12 asm statements; loop invariants per variant (A64IndLoop, A64IndAcc), output transform (A64IndTrans), stores, pixel loop (A64IndRun) | `C56_indirect_asm_is_16_bit`, `C56_indirect_asm_equals_reference`, `C56_indirect_asm_small_filter`, `C56_indirect_asm_valid`, `C56_indirect_asm_overflow_refuted` |
| C57 | The AArch64 indirect kernels read memory in bounds | Prop_A64Ind.v | corollary of C56 (the model faults on any access outside an array); witnesses by evaluating the machine | `C57_indirect_asm_reads_in_bounds`, `C57_indirect_asm_grouped_reads`, `C57_indirect_asm_over_read_refuted` |
| C58 | The 32-bit Arm BGEMM kernel computes what the portable kernel computes | Prop_A32.v | instruction-level model (A32) on the machine of A64; block invariant over the depth loop, transform, copy loop, block walk (A32Acc .. A32Kernel) | `C58_asm_arm32_equals_portable` |
| C59 | A matrix product on 32-bit Arm is the binary product | Prop_A32.v | C58 composed with the generic schedule theorem of A64Rel | `C59_bgemm_arm32` |
| C60 | int8 outputs on 32-bit Arm are the nearest int8 values | Prop_A32.v | IEEE binary32 instance of the float operations (IeeeOps); integer arithmetic on multiples of 2^-149; witness by evaluating the machine | `C60_arm32_int8_rounding`, `C60_nearest_refuted` |
| C61 | int8 outputs on AArch64 are the nearest int8 values, as in the portable kernel | Prop_A32.v | IEEE binary32 instance (IeeeOps), uniqueness of the nearest integer off ties; witness by evaluating the machine | `C61_aarch64_int8_rounding`, `C61_ties_refuted` |
| C62 | Accuracy of the float32 convolution output | FloatSetup.v (binary64 setup, binary32 transform), FloatAccuracy.v, FloatConv.v | forward error analysis in the reals with Flocq, transferred to the rationals | `C62_float_output_accuracy` |
| C63 | Accuracy of the int8 convolution output | FloatSetup.v, FloatAccuracy.v, FloatConv.v | as C62, then nearest-integer reasoning | `C63_int8_output_accuracy` |
| C64 | The optimisation pass preserves results in whatever order it rewrites | IR.v, IRProofs.v, IRRules.v, IRSound.v, IRWell.v | programs as lists of SSA instructions over shaped tensors; each pattern is proved once with broadcasting; a step is sound for every value still present; the conditions on the initial program are an invariant of the steps | `C64_any_rewriting_order`, `C64_refuted_per_pixel_bias`, `C64_refuted_multiplier_shape` |
| C65 | The optimisation pass terminates | IRTerm.v | a weight for each operation that every action decreases | `C65_rewriting_ends` |
| C66 | The op-removal and prepare passes preserve results in whatever order they rewrite | IRTf.v, IRPrep.v, IRPass.v, IRPassRule.v, IRPassProof.v | TensorFlow operators as functions on shaped tensors; each pattern is proved once; a step keeps SSA form, the results and the conditions on the program | `C66_any_rewriting_order`, `C66_refuted_sign_shift`, `C66_refuted_vector_condition`, `C66_refuted_nearly_binary`, `C66_refuted_strided_padding` |
| C67 | The op-removal and prepare passes terminate | IRPassProof.v | a weight for each operation that every action decreases | `C67_rewriting_ends` |
| C68 | A converted model, executed, computes what the exported graph computes | IRPassTame.v, IRRun.v, IRRunProof.v, IRRunConv.v, IRRunTop.v | must-semantics of a program in memory: buffers represent values; each LCE kernel is replaced by its model from C01-C10, C28, C47; a simulation between values and buffers, composed with C66 and C64 (IRPassTame: the conditions of C64 survive the prepare pass) | `C68_machine_computes_the_graph`, `C68_converted_model_computes_the_graph`, `C68_builtins_exist`, `C68_values_have_buffers`, `C68_zero_padding_accepted` |
| C69 | Fusing padding into convolutions keeps the model's outputs and stops | IRFuse.v | the patterns as rewriting rules on the programs of C64-C67, one action at a time; each keeps the output values and the condition; a decreasing weight; composed with C66, C64 and C68 | `C69_any_order`, `C69_stride_one`, `C69_terminates`, `C69_stride2_refuted`, `C69_whole_chain` |
| C70 | The optimised convolution on 32-bit Arm, and int8 convolutions on Arm, write what the reference convolution writes | A64Conv.v (conv_k), A32*.v, Prop_Arm32Conv.v | the convolution over any kernel meeting its contract (C58); int8 against the float reference element by element with the rounding lemmas of C60, C61 | `C70_conv_arm32_float`, `C70_conv_arm32_int8`, `C70_conv_aarch64_int8` |
| C71 | Float outputs of the optimised kernels, including the zero-padding correction, are accurate in IEEE arithmetic | ZeroPad.v (CacheG, ApplyG), FloatZeroPad.v, Prop_FloatOpt.v | the correction code over any number type; in binary32 the tap sums are shown exact, then one product and one sum are rounded (Flocq error bounds) on top of C62 for the accumulator with ones outside | `C71_indirect_accuracy`, `C71_bgemm_accuracy`, `C71_kernels_agree`, `C71_same_sign_refuted` |
| C72 | The model file contains the converted program, and running it computes the program's values | IRFile.v, Prop_File.v | packing, legalisation, translation and registration as functions on whole programs; the file is executed with codes resolved by name and options parsed by Init; per-operator simulation against C68, induction over the program with SSA giving the filter constants | `C72_file_round_trip`, `C72_other_custom_operators_kept`, `C72_file_computes_the_program`, `C72_model_file_computes_the_graph` |
| C73 | The quantise pass keeps what the network computes, in any order | IRInt8.v, Prop_Int8.v | quantised operators as functions on tensors; the pass as rewriting of SSA programs; the specification strips parameter pairs; each action simulates zero or one value-preserving replacement of the stripped program; a program no pattern matches is its own stripped form; termination by a weight using the positions of definitions | `C73_quantise_pass`, `C73_no_pairs`, `C73_quantise_terminates`, `C73_parameters_refuted`, `C73_order_refuted` |
| C74 | A quantised model, run by the interpreter, computes what the quantised graph computes | IRRun8.v, Prop_Run8.v, IRRun*.v | the buffer machine of C68 with the three int8 operators run by their kernels (Quantize.v, Prepare.v, Lifecycle.v, EndToEnd.v); each operator: buffers hold values before implies buffers hold values after, for every execution; induction over the program; composed with C73 | `C74_machine_computes_quantised_program`, `C74_quantised_model_computes_the_graph`, `C74_results_are_int8` |
| C75 | The converter runs the pipeline as asked and returns the input and output types asked for | Converter.v, Prop_Converter.v, GraphUtil.v | the front end as a run (effects, outcome) over abstract importers and pipeline, exceptions as outcomes; success characterised by an equivalence; types through the structure lemmas of C36 | `C75_input_count`, `C75_saved_rejects`, `C75_keras_rejects`, `C75_saved_model`, `C75_pipeline_calls`, `C75_graphdef`, `C75_keras`, `C75_types_by_position`, `C75_requested_types`, `C75_int8_request_refuted`, `C75_mixed_inputs_refuted` |
| C76 | Turning detection post-processing to int8 keeps the model's results | Detect.v, Prop_Detect.v | programs with multi-result operators and explicit types; the pattern as a function (no match, abort, replace), the driver as any sequence of matches and erasures; simulation except at the fresh value, a weight for termination, type invariants | `C76_any_order`, `C76_terminates`, `C76_types`, `C76_no_abort`, `C76_complete`, `C76_half_float_refuted` |
| C77 | The file of a quantised model keeps every operator, scale and zero point, and running it computes the model | IRFile8.v, Prop_File8.v | scales and zero points move from the operators to a table of the file's tensors; every operator, erased, is written by C72's functions and re-typed when read; run of the file simulated operator by operator with C72 and C74 | `C77_file_round_trip`, `C77_file_computes_the_quantised_program`, `C77_quantised_model_file_computes_the_graph` |
| C78 | Of the whole conversion, only TensorFlow's own passes and dropped parameter quantisation can change a model's results | Pipeline.v, Prop_Pipeline.v | the pipeline as a list of passes computed from the options; foreign passes are relations, own passes the rewriting relations of the earlier claims; induction over the run composes the changes; order facts by computation over all options | `C78_pipeline`, `C78_order`, `C78_error_budget`, `C78_exact`, `C78_interleaved`, `C78_converted_file_computes_the_model` |
| C79 | Float and int8 results keep their accuracy whichever multiply-adds the compiler fuses; the builds are not bit-identical | FloatFma.v, FloatFmaOpt.v, Prop_FloatFma.v | a fused multiply-add on SpecFloat data proved equal to Flocq's; a boolean per channel and per value chooses it; the error analysis of C62, C63, C71 repeated for both values of each boolean | `C79_fma32_is_ieee`, `C79_fma64_is_ieee`, `C79_float_reference`, `C79_int8_reference`, `C79_float_indirect`, `C79_float_bgemm`, `C79_builds_agree`, `C79_unfused`, `C79_bit_identical_refuted` |
| C80 | What the interpreter reports about its inputs and outputs is what predict accepts and returns | Accessors.v, Prop_Accessors.v | the accessors and predict as functions on a state of tensors, exceptions as None with the state left behind; TFLite's loader of quantisation parameters by contract | `C80_reported_is_accepted`, `C80_results_as_reported`, `C80_types_reported`, `C80_scales_from_the_file`, `C80_scales_refused`, `C80_zero_points_from_the_file`, `C80_common_zero_point_refuted` |
| C81 | A failed conversion returns no file, and a reported success is the translation of what the whole pipeline made | Flow.v, Prop_Flow.v | the control flow of ConvertTFExecutorToTFLOrFlatbuffer on the pass lists of Pipeline.v, every pass an arbitrary function giving success, module and error messages; C78 applied to the passes that succeeded | `C81_old_control_flow_refused`, `C81_success`, `C81_complete`, `C81_bytes`, `C81_stops_at_failure`, `C81_export`, `C81_returned_file_keeps_results`, `C81_names`, `C81_silent_failure_refuted` |
| C82 | predict in Python on a converted model returns the model's results, in the reported types and shapes | Prop_Predict.v (no new model) | C78 for the program and its file, C80 for the checks and copies of predict, joined by the contract of Invoke | `C82_predict_computes_the_model` |
| C83 | Bit-packed outputs are the same whichever kernel or build computes them | Prop_Builds.v | each kernel is proved to write the words of the reference kernel (C10, C14, C19, C54); packed words are determined by their bits, and those by the convolution and the thresholds | `C83_bitpacked_same_words`, `C83_invoke_aarch64` |
| C84 | Arm outputs are the reference kernel's, bit for bit | AsmFloat.v, Prop_BuildsFloat.v, AsmInt8.v, Prop_BuildsInt8.v | decoding undoes encoding on canonical binary32 data and Flocq shows every result canonical, so the transform on bit patterns is the image of the one on numbers; then C54 and C70, and C62 for the distance to the exact result | `C84_aarch64_8x4`, `C84_aarch64_4x4`, `C84_arm32`, `C84_accuracy`, `C84_zero_padding`, `C84_zero_padding_4x4`, `C84_zero_padding_arm32`, `C84_invoke_aarch64`, `C84_int8_8x4`, `C84_int8_4x4` |

## Trusted base

* Coq 8.16.1's kernel (and, for `vm_compute` in witnesses, its bytecode machine;
  `coqchk` re-checks these without it).
* `Print Assumptions` answers "Closed under the global context" for every
  `Cnn_...` theorem except `C12_float_thresholds_with_margin`,
  `C12_float_output_sign_with_margin`, `C62_float_output_accuracy`,
  `C63_int8_output_accuracy`, the three `C71_...` theorems and the `C79_...` theorems
  other than `C79_unfused` and `C79_bit_identical_refuted`, and
  `C45_quantize_of_int8_double`, `C45_quantize_of_int8_single`,
  `C46_quantize_of_bconv_float32`, and the `C84_...` theorems, whose proofs go through Flocq and the
  standard library's real numbers; for these it lists exactly the standard
  library's `ClassicalDedekindReals.sig_not_dec`, `ClassicalDedekindReals.sig_forall_dec`,
  `FunctionalExtensionality.functional_extensionality_dep` and `Classical_Prop.classic`.
  (Flocq contributes lemmas, no axioms.) No axiom of ours is used anywhere. (A
  list of axioms for the whole library context mentions the module parameters of
  `ssreflect`'s `Under_rel`, which are signature fields of Coq's own `ssrunder`
  that no theorem here depends on.)
* Faithfulness of the model to the text in /repo: each definition cites its file
  and lines. It is a hand transcription, except that the assembly listings are
  compared mechanically as said above.
* C++ semantics assumed: two's complement, little-endian memory, 32-bit `int`,
  no overflow of `int` index arithmetic (sizes are unbounded integers) unless a
  property is about overflow (C05, C22, C23, 8x4 accumulators), arrays that do
  not alias unless said.
* Meaning of the NEON/AArch64 instructions as written in `A64.v` and
  `BitpackA64.v` (from the Arm architecture manual). Float instructions
  (`ucvtf/scvtf`, `fmul`, `fadd`, `fcvtns`) are arguments of the kernel theorems
  (`nops`), with only their result range assumed; C60, C61 and C84 use an IEEE
  binary32 instance (`IeeeOps.v`).
* External software, by contract only: ruy (which blocks are executed when, and
  that blocks are non-empty and aligned; its packed layout is modelled), TFLite's
  interpreter, padding helpers, im2col and float MaxPool, flexbuffers,
  flatbuffers, numpy, MLIR's pattern driver.

## What is modelled, file by file

| file in /repo/larq_compute_engine | status |
|---|---|
| core/types.h | modelled (xor_popcount, saturate, CeilDiv) |
| core/bitpacking/bitpack.h, utils.h | modelled: portable path completely, `__aarch64__` dispatch |
| core/bitpacking/bitpack_aarch64.h | modelled instruction by instruction |
| core/bconv2d/reference.h, output_transform.h, params.h | modelled |
| core/bconv2d/zero_padding_correction.h | modelled (rational arithmetic; in IEEE arithmetic in FloatZeroPad.v) |
| core/bconv2d/optimized_bgemm.h | modelled; im2col helpers by contract |
| core/bconv2d/optimized_indirect_bgemm.h | modelled |
| core/indirect_bgemm/kernel.h, kernel_4x2_portable.h, select_kernel.h | modelled |
| core/indirect_bgemm/kernel_8x4x{1,2,4}_aarch64.h | all asm statements modelled and proved instruction by instruction, the C++ around them by hand; registers not declared as operands hold arbitrary values |
| core/bgemm/bgemm.h, ruy_pack.h, ruy_trmul_params.h, kernels.h, kernels_common.h | modelled; ruy's scheduling is any legal schedule and interleaving; the packing assembly of ruy itself is by contract |
| core/bgemm/kernels_aarch64.h | 4x4 kernel (float, int8; both RUY_OPT branches) and 8x4 kernel (float, int8, bit-packed) modelled and proved instruction by instruction |
| core/bgemm/kernels_arm32.h | modelled instruction by instruction (A32.v); not modelled: wrap-around of 32-bit addresses, alignment, flush-to-zero of subnormals by the 32-bit NEON unit |
| core/bmaxpool.h | modelled |
| tflite/kernels/bconv2d.cc | modelled (Init, Prepare, OneTimeSetup, Eval, registration variants) |
| tflite/kernels/bmaxpool.cc, quantization.cc, utils.h, lce_ops_register.h | modelled |
| tflite/python/interpreter_base.py, interpreter.py, interpreter_wrapper_utils.h | predict, list/array handling; accessors and SetTensorFromNumpy (Accessors.v, C80); the pybind plumbing is not |
| tflite/benchmark, tflite/java | the flags and the registration (Misc.v, C40); measuring and logging are not |
| mlir/ir/lce_ops.cc, lce_ops.td | options, folding, verifiers modelled; rest is generated MLIR |
| mlir/transforms: bitpack.cc, bitpack_weights*, bitpack_activations_patterns.td, optimize.cc, optimize_patterns_*.td, prepare_patterns_*.td, prepare_tf.cc, quantize_patterns.td, fuse_padding.*, padding.h, set_batch_size.cc | the rewrites are modelled as functions on the tensors they read; for the optimize, op-removal, prepare and padding-fusion passes (op_removal_patterns.td included) the graph rewriting itself is modelled too (IR.v, IRPass.v, IRFuse.v), as any sequence of actions; the execution of the result in memory is modelled in IRRun.v; MLIR's driver code and its choice of order are not |
| mlir/transforms: legalize_tflite.cc, translate_tflite.cc, passes.h, detection_postprocess.cc | legalize_tflite.cc and translate_tflite.cc modelled on whole programs (IRFile.v, C72; IRFile8.v, C77 for quantised ones); quantize.cc with quantize_patterns.td modelled as rewriting of whole programs (IRInt8.v, C73); passes.h has declarations only; detection_postprocess.cc modelled as rewriting of whole programs (Detect.v, C76) |
| mlir/python/util.py | modelled with an evaluation semantics of subgraphs |
| mlir/python/converter.py, mlir/tf_tfl_passes.cc, tf_to_tfl_flatbuffer.cc, pybind files | converter.py, common.cc, saved_model_tfl_flatbuffer.cc, graphdef_tfl_flatbuffer.cc: Converter.v (C75), with TensorFlow importers and the pass pipeline abstract; tf_tfl_passes.cc (which passes, in which order) and tf_to_tfl_flatbuffer.cc (their sequence around variable freezing): Pipeline.v (C78), foreign passes as relations; failures, statuses, IsValidGraph and the truncation of names: Flow.v (C81); the pybind glue: not modelled |

## Findings (disagreements between the code and the properties)

Each is a theorem `..._refuted`, unless marked "read only" (seen while modelling,
not formalised).

1. C04: the AArch64 float packing records the IEEE sign bit, the portable one `x < 0`: -0.0 and negative NaN differ.
2. C05: `(1 << 31) - 1`-style shift of a signed 1 when 31 columns remain and the zero point is above every value: undefined behaviour.
3. C12: converter thresholds are computed in float with a rounding that can disagree with the runtime's float output. They are proved to agree outside a relative margin of 2^-19.
4. C15, F31: kernels read thresholds past the end (portable 4x2: up to 3; 8x4 assembly: up to 7; multiplier/bias arrays are padded by 4 but 8 are read).
5. C21: zero-padding correction is wrong when the filter is larger than the input.
6. C22: the indirect kernels with uint16 accumulators are selected by a bound on the input size, not on the filter: overflow possible.
7. C25: RELU / RELU6 max pooling is rewritten although the activation changes signs.
8. C26: explicit padding is fused for strides where SAME splits the padding differently.
9. C27: TANH/SIGN_BIT activations pass the verifier but cannot be written; BMaxPool2D without a padding key is silently SAME.
10. C29: the indirect kernel object built at the first Invoke is kept after the input is resized or moved.
11. C30/C31/C46: int8 zero point -128 or scale above 2 loses the bit; converter folds in double, runtime in float; ties.
12. C33: `Sign(Sign(x)+c)` is rewritten for any constant c.
13. C34: filters are recognised as binary within a tolerance of 0.005.
14. C36/C37: util.py renumbers only the first signature/for every subgraph; removes tensors still used elsewhere.
15. C38: Prepare does not check the input depth; divides by zero for a zero filter depth; accepts a bitpacked SAME-zero node without multiplier.
16. C42: predict with zero samples raises IndexError; lists of unequal lengths are truncated.
17. C50: the RUY_OPT(MAX_STREAMING) branch of the 4x4 kernel over-accumulates at most depths.
18. C55: the 8x4 kernel reads multiplier, bias and threshold in groups of 8; OneTimeSetup pads multiplier and bias by 4 and the thresholds not at all, so it reads past their end for most channel counts not a multiple of 8.
19. C56: the indirect assembly kernels return the result modulo 2^16 in the case of finding 6.
20. C57: the indirect assembly kernels read multiplier and bias past their end when the last group has 1, 2 or 3 channels modulo 8, and, for grouped convolutions, load activations for the group after the last: up to 4 words behind the input tensor.
21. Read only: the 8x4 indirect assembly kernels modify registers declared as inputs only; `%x[row]` reads the upper half of a 32-bit operand.
22. C60: the 32-bit Arm kernel truncates to 8 fractional bits before rounding, so negative float results less than 1/256 beyond a half-integer are rounded to the farther integer.
23. C61: int8 results on exact ties differ between the assembly (to even) and the portable kernel (away from zero); the source documents this as allowed.
24. C64: shapes are not checked before fusing (a TODO in the source). A constant with one value per pixel added to a convolution followed by a quantise becomes a rank-4 bias, of which the thresholds use the first values only; a multiplier of shape [1,1,1,C] followed by a quantise contributes only the sign of its first channel. Both pass Prepare and give wrong bits silently. Without the quantise, Prepare rejects the model.
25. C66: a tf.Select (v1) whose condition is a vector chooses along the outermost dimension; the quantiser pattern broadcasts the condition along the innermost one. On a tensor whose outermost and innermost sizes agree the result is silently wrong; otherwise conversion fails.
26. C71: with SAME-zero padding the optimised kernels round twice more than the reference kernel (the product and the addition of the correction). For multiplier 0.1f and bias 0.2f an output that is +0 in the reference kernel is about -7e-8 in the optimised one, so LceQuantize of the output gives opposite bits in the two kernels. The accuracy bound still holds.
27. C73: the quantise pass uses the multiplier and bias below a quantise/dequantise pair as they are, so a network whose parameters really were rounded computes something else after the pass (intended, it seems, but nothing checks that the pair is only an annotation). If a parameter is a quantised LceDequantize, two patterns match the same operation and the result depends on which the driver tries first.
28. C75: convert_keras_model asked for int8 inputs and outputs on a model the pipeline does not quantise returns a float32 model without an error: convert_saved_model does raise, but `except Exception` (converter.py:227) swallows it and the fallback skips the retyping (line 271). If the pipeline quantised only some inputs, both converters leave the others float32 without saying so.
29. C76: the detection pass only checks that the three operands come from Dequantize operators. One that widens float16 (or per-axis) scores makes `cast<quant::UniformQuantizedType>` (detection_postprocess.cc:122-125) abort the converter; float16 boxes or anchors are handed to the integer operator.
30. C79: the float path leaves contraction to the compiler: the same model gives different float outputs on a build that fuses the output transform (AArch64 compilers by default) than on one that does not; both meet the error bound.
31. C80: `get_zero_points` compares each channel's zero point with the tensor's legacy field, which TFLite sets to 0 for per-channel tensors; channels with a common nonzero zero point raise although the comment asks only that they agree.
32. C81: when a pass before variable freezing fails without an error diagnostic, `ConsumeStatus` gives OK and the converter returns an empty byte string as a success (the later failures are combined with an error of their own).
33. C46: even away from exact ties the fused int8 operator and quantising the float output differ: 0.49999997 with scale 1 and zero point 100 gives 101 against 100, because the zero point is folded into the float bias.

## Checking the theorems against wrong programs

`seeded/LOG.jsonl` records edits of the model in a scratch copy, the claim each
breaks, and the theorems that failed (or were tightened because they did not).
