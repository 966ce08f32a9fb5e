{"id": "C01", "title": "Bit-packing records exactly the sign of every element", "statement": "For every matrix, every row/column count and every zero point, packing (LceQuantize) produces ceil(cols/32) words per row; bit c%32 of word c/32 of a row is set iff the element in column c is strictly below the zero point, and every padding bit (columns cols .. 32*ceil(cols/32)-1) is 0. This covers the three shortcuts: zero point at or below the type's lowest value, zero point above the type's maximum, and packing the whole matrix as one flat array when cols is a multiple of 32.", "quantifier": "all element values, row and column counts (including 0), zero points in and out of the element type's range", "why_tests_cant": "there are infinitely many shapes and the tail/shortcut code paths depend on cols mod 32 and on zero point relative to type range", "anchors": ["larq_compute_engine/core/bitpacking/bitpack.h: bitpack_bitfield_quantized, bitpack_bitfield, bitpack_array, bitpack_matrix, GetBitpackedSize", "larq_compute_engine/core/bitpacking/utils.h: bitpack_tensor"]}
{"id": "C02", "title": "Dequantize after quantize gives the sign of every element", "statement": "Unpacking a packed matrix yields, for every row and column, -1 (the one-bit result) where the element was below the zero point and +1 (the zero-bit result) elsewhere, touches no padding element, and conversely packing the unpacked matrix gives back the same words whenever the padding bits were 0.", "quantifier": "all matrices, shapes, zero points, and any pair of distinct unpacked values on either side of the zero point", "why_tests_cant": "round trip must hold for every shape and every bit pattern", "anchors": ["larq_compute_engine/core/bitpacking/bitpack.h: unpack_bitfield, unpack_matrix", "larq_compute_engine/tflite/kernels/quantization.cc: QuantizeEval, DequantizeEval"]}
{"id": "C03", "title": "Vectorised int8 packing equals portable packing", "statement": "On AArch64 the NEON routine that packs int8 data 128 elements at a time writes exactly the words the portable routine would write, for every zero point and any number of blocks, and reads/writes only inside the blocks.", "quantifier": "all int8 contents, all zero points in int8, all block counts", "why_tests_cant": "2^1024 inputs per block; the software-pipelined loop has separate prologue/epilogue for 1 block and for many", "anchors": ["larq_compute_engine/core/bitpacking/bitpack_aarch64.h: bitpack_aarch64_4x32 (int8)", "larq_compute_engine/core/bitpacking/bitpack.h: bitpack_array"]}
{"id": "C04", "title": "Vectorised float packing equals portable packing", "statement": "On AArch64 the NEON routine that packs float data gives the words the portable routine gives for every float32 input.", "quantifier": "all float32 bit patterns and block counts", "why_tests_cant": "2^4096 inputs per block; only values such as negative zero or negative NaN distinguish sign bit from comparison", "anchors": ["larq_compute_engine/core/bitpacking/bitpack_aarch64.h: bitpack_aarch64_4x32 (float)", "larq_compute_engine/core/bitpacking/bitpack.h: bitpack_array"]}
{"id": "C05", "title": "Packing never executes undefined behaviour", "statement": "For every shape and zero point packing evaluates no expression with undefined behaviour.", "quantifier": "all shapes and zero points", "why_tests_cant": "the offending shape class (cols mod 32 = 31 with an out-of-range zero point) computes the expected answer on usual compilers, so output comparison does not reveal it", "anchors": ["larq_compute_engine/core/bitpacking/bitpack.h: bitpack_matrix lines 266-291"]}
{"id": "C06", "title": "Reference binary convolution is the +1/-1 convolution (valid or one-padding)", "statement": "For VALID padding, or SAME padding with pad value one, and every shape, stride, dilation, padding offset and group count, K minus twice the accumulator the reference kernel passes to its output transform at (batch, y, x, channel) equals the ordinary integer convolution of the +-1 input with the +-1 filter, where input pixels outside the image count as +1; every read is in bounds and every output element is written.", "quantifier": "all tensors, shapes, strides, dilations, paddings, groups, channel counts", "why_tests_cant": "all tensor contents and shapes; interaction of groups, dilation and edges has unboundedly many cases", "anchors": ["larq_compute_engine/core/bconv2d/reference.h: BConv2DReference", "larq_compute_engine/core/types.h: xor_popcount"]}
{"id": "C07", "title": "Reference binary convolution with zero padding", "statement": "With SAME padding and pad value zero, and an even number of input channels per group, the same value equals the +-1 convolution in which pixels outside the image contribute 0.", "quantifier": "all tensors and shapes with an even number of channels per group", "why_tests_cant": "as C06", "anchors": ["larq_compute_engine/core/bconv2d/reference.h: BConv2DReference (binary_zero_point)", "larq_compute_engine/tflite/kernels/bconv2d.cc: Prepare lines 194-216"]}
{"id": "C08", "title": "Float output is post_mul*activation(conv)+post_bias", "statement": "The fused output transform prepared by the runtime and applied to the accumulator gives (in exact arithmetic) post_activation_multiplier[c]*act(K-2*accum)+post_activation_bias[c], where act clamps to the fused activation's range, for every accumulator 0..K.", "quantifier": "all accumulators, K, activations, multipliers and biases (rationals)", "why_tests_cant": "for all K and activation ranges, including ranges wider or narrower than [-K,K]", "anchors": ["larq_compute_engine/core/bconv2d/output_transform.h: OutputTransform<float>", "larq_compute_engine/tflite/kernels/bconv2d.cc: OneTimeSetup, GetOutputTransform"]}
{"id": "C09", "title": "Int8 output is the quantised float output", "statement": "With int8 output and output quantisation (scale, zero point), the value written is the float value divided by scale plus zero point, rounded to nearest (halves away from zero) and saturated to [-128,127].", "quantifier": "all accumulators, scales>0, zero points, multipliers, biases (rationals)", "why_tests_cant": "continuous parameters", "anchors": ["larq_compute_engine/core/bconv2d/output_transform.h: OutputTransform<int8_t>, saturate, round", "larq_compute_engine/tflite/kernels/bconv2d.cc: OneTimeSetup"]}
{"id": "C10", "title": "Bitpacked output of the reference kernel", "statement": "With bitpacked output, bit c%32 of word c/32 of each output pixel is set iff accum>threshold[c] for that channel, and all padding bits are 0, for every number of output channels.", "quantifier": "all tensors, shapes and thresholds", "why_tests_cant": "word flushing depends on channels mod 32", "anchors": ["larq_compute_engine/core/bconv2d/reference.h: BConv2DReference lines 118-137"]}
{"id": "C11", "title": "Converter thresholds make bitpacked output equal the sign of the float output", "statement": "The thresholds computed by the converter together with the filter sign flip make the bitpacked output bit at every channel equal to (float output < 0) of the un-fused convolution for every input, for every multiplier (positive, negative, zero), bias, and fused activation, in exact arithmetic.", "quantifier": "all accumulators 0..K, multipliers, biases (rationals), activations", "why_tests_cant": "continuous parameters; the special cases at the ends of the clamp range are rarely hit by tests", "anchors": ["larq_compute_engine/mlir/transforms/optimize.cc: ComputeWriteBitpackedOutputThresholds, GetBitpackedOutputThresholds, GetSignsOfVectorAndBroadcast4D", "larq_compute_engine/mlir/transforms/bitpack_activations_patterns.td"]}
{"id": "C12", "title": "Converter thresholds are exact in floating point", "statement": "The same equivalence with the threshold computed in float32 as the code does.", "quantifier": "all float32 multipliers and biases", "why_tests_cant": "needs adversarial rounding", "anchors": ["larq_compute_engine/mlir/transforms/optimize.cc: ComputeWriteBitpackedOutputThresholds"]}
{"id": "C13", "title": "Indirect BGEMM float/int8 kernel equals the reference kernel", "statement": "For every shape, group count, stride, dilation and padding, the portable indirect 4x2 kernel writes exactly the values the reference kernel writes (one-padding/valid), including tail pixels and tail channels, reads only inside its buffers and writes only inside the output.", "quantifier": "all tensors and shapes", "why_tests_cant": "tails, groups and the last odd pixel combine in unboundedly many ways; the kernel writes some elements more than once", "anchors": ["larq_compute_engine/core/indirect_bgemm/kernel_4x2_portable.h: Kernel4x2Portable", "larq_compute_engine/core/indirect_bgemm/kernel.h: PackWeights, FillIndirectionBuffer, Dispatch", "larq_compute_engine/core/bconv2d/optimized_indirect_bgemm.h"]}
{"id": "C14", "title": "Indirect BGEMM bitpacked kernel equals the reference kernel", "statement": "The portable indirect kernel with bitpacked output writes, for every shape, the same words as the reference kernel, with padding bits zero, and its result does not depend on the (at most 3) threshold values it reads beyond the end of the threshold array.", "quantifier": "all tensors, shapes and thresholds", "why_tests_cant": "16-bit column flushing depends on channel counts per group and mod 32", "anchors": ["larq_compute_engine/core/indirect_bgemm/kernel_4x2_portable.h: Kernel4x2Portable<TBitpacked>"]}
{"id": "C15", "title": "The bitpacked indirect kernel reads only inside the threshold array", "statement": "Every threshold the kernel reads is an element of the thresholds array.", "quantifier": "all channel counts", "why_tests_cant": "an out-of-bounds read of up to 3 ints rarely crashes", "anchors": ["larq_compute_engine/core/indirect_bgemm/kernel_4x2_portable.h lines 226-320"]}
{"id": "C16", "title": "Weight packing and indirection buffer are faithful", "statement": "The packed weight buffer contains, at the position the kernel reads, the filter word it stands for (and never anything uninitialised that matters), and the indirection buffer points, for every output pixel and filter tap, to the right input pixel or to the zero buffer.", "quantifier": "all shapes, block sizes, groups", "why_tests_cant": "index arithmetic with ceil/tails over unbounded shapes", "anchors": ["larq_compute_engine/core/indirect_bgemm/kernel.h: PackWeights, FillIndirectionBuffer"]}
{"id": "C17", "title": "BGEMM equals the mathematical product for every block schedule", "statement": "The packed binary matrix product (LHS/RHS packed 4x4, computed block by block) writes at (row, col) the output transform of the popcount of the exclusive-or of LHS row and RHS column, for every matrix size and for every order/partition in which the runtime assigns blocks, float and int8.", "quantifier": "all matrices, sizes, and block partitions/orders", "why_tests_cant": "thread schedules and block shapes are chosen at run time", "anchors": ["larq_compute_engine/core/bgemm/kernels.h: BgemmKernel StandardCpp, RunBGemmKernelTyped", "larq_compute_engine/core/bgemm/ruy_pack.h", "larq_compute_engine/core/bgemm/bgemm.h", "larq_compute_engine/core/bgemm/kernels_common.h"]}
{"id": "C18", "title": "BGEMM bitpacked output for every block schedule", "statement": "The same with bitpacked output: word w of column j has bit b set iff the product at row 32w+b exceeds its threshold; block starts must be multiples of 32 rows and then the result is independent of the partition.", "quantifier": "all matrices, sizes, block partitions with 32-aligned starts", "why_tests_cant": "as C17", "anchors": ["larq_compute_engine/core/bgemm/kernels.h lines 97-180"]}
{"id": "C19", "title": "BGEMM-based convolution equals the reference kernel", "statement": "im2col followed by BGEMM equals the reference kernel for valid and one-padding.", "quantifier": "all tensors and shapes", "why_tests_cant": "as C13", "anchors": ["larq_compute_engine/core/bconv2d/optimized_bgemm.h: BConv2DOptimizedBGEMM, im2col"]}
{"id": "C20", "title": "Zero-padding correction makes the optimised float kernels equal the reference", "statement": "With SAME padding and pad value zero and float output without activation, one-padded convolution followed by the cached correction equals the zero-padded convolution at every output element, whenever the effective filter fits in the input; the cache is read and written in bounds.", "quantifier": "all shapes with effective filter <= input, strides, dilations, filters, multipliers (exact arithmetic)", "why_tests_cant": "edge geometry: the kernel merges symmetric cases; all sizes needed", "anchors": ["larq_compute_engine/core/bconv2d/zero_padding_correction.h: CacheCorrectionValues, ApplyCorrection, GetCacheSize"]}
{"id": "C21", "title": "Zero-padding correction for filters larger than the input", "statement": "The same for filters larger than the input.", "quantifier": "all shapes", "why_tests_cant": "tests use inputs larger than the filter", "anchors": ["larq_compute_engine/core/bconv2d/zero_padding_correction.h: ApplyCorrection lines 234-290"]}
{"id": "C22", "title": "16-bit accumulators never overflow when selected (indirect)", "statement": "Whenever the runtime selects an indirect kernel with 16-bit accumulators, no accumulator value can exceed 65535 for any input.", "quantifier": "all shapes for which the uint16 kernel is selected", "why_tests_cant": "overflow needs huge, specific shapes", "anchors": ["larq_compute_engine/core/indirect_bgemm/select_kernel.h: SelectRuntimeKernel"]}
{"id": "C23", "title": "16-bit accumulators never overflow when selected (BGEMM)", "statement": "Whenever the runtime selects 16-bit BGEMM accumulators, no accumulator value can exceed 65535 for any input.", "quantifier": "all shapes", "why_tests_cant": "as C22", "anchors": ["larq_compute_engine/tflite/kernels/bconv2d.cc: EvalChooseKernelType"]}
{"id": "C24", "title": "Binary max pooling is max pooling of +1/-1 values", "statement": "Each output bit of LceBMaxPool2d represents the maximum of the +-1 inputs inside the window clipped to the image, for every shape, stride, filter and SAME/VALID padding; every window is non-empty; reads are in bounds; padding bits stay zero.", "quantifier": "all tensors, shapes, filters and strides", "why_tests_cant": "unbounded shapes", "anchors": ["larq_compute_engine/core/bmaxpool.h: BMaxPool", "larq_compute_engine/tflite/kernels/bmaxpool.cc: Prepare"]}
{"id": "C25", "title": "Moving quantisation before max pooling preserves results", "statement": "Replacing quantize(maxpool(x)) by bmaxpool(quantize(x)) preserves every output bit, for every fused activation the rewrite accepts.", "quantifier": "all tensors, windows, activations", "why_tests_cant": "the rewrite does not look at the fused activation", "anchors": ["larq_compute_engine/mlir/transforms/optimize_patterns_target_arm.td"]}
{"id": "C26", "title": "Fusing explicit padding into a convolution preserves the result", "statement": "Whenever the converter replaces Pad + VALID convolution by a SAME convolution, the padding amounts used by SAME are the explicit ones, so results are unchanged.", "quantifier": "all sizes, strides, dilated filter sizes, padding amounts", "why_tests_cant": "depends on parity of sizes with stride", "anchors": ["larq_compute_engine/mlir/transforms/padding.h: IsSamePadding1D", "larq_compute_engine/mlir/transforms/fuse_padding.cc", "larq_compute_engine/mlir/transforms/prepare_tf.cc: IsSamePadding"]}
{"id": "C27", "title": "Operator options written by the converter are read back unchanged by the runtime", "statement": "For every BConv2D/BMaxPool2D attribute set the converter accepts, the runtime's Init reads back the same strides, dilations, channel counts, padding, pad value and activation, and fails iff a required key is missing or the pad value is invalid.", "quantifier": "all attribute values", "why_tests_cant": "all int32 values and all subsets of keys", "anchors": ["larq_compute_engine/mlir/ir/lce_ops.cc: buildCustomOptions", "larq_compute_engine/tflite/kernels/bconv2d.cc: Init", "larq_compute_engine/tflite/kernels/bmaxpool.cc: Init", "larq_compute_engine/mlir/transforms/translate_tflite.cc"]}
{"id": "C28", "title": "Results do not depend on the history of Prepare/Eval calls", "statement": "After any sequence of resize/Prepare/Eval calls, Eval of the reference and BGEMM kernels gives what a fresh node prepared with the current shapes gives.", "quantifier": "all call histories", "why_tests_cant": "histories are unbounded", "anchors": ["larq_compute_engine/tflite/kernels/bconv2d.cc: Prepare, OneTimeSetup, Eval*"]}
{"id": "C29", "title": "Indirect kernel results do not depend on history", "statement": "The same for the indirect BGEMM kernel.", "quantifier": "all call histories", "why_tests_cant": "histories are unbounded; needs resize between evals", "anchors": ["larq_compute_engine/tflite/kernels/bconv2d.cc: EvalOptIndirectBGEMM, OneTimeSetup"]}
{"id": "C30", "title": "Int8 dequantize then quantize returns the same bits", "statement": "Dequantizing bits to int8 with (scale, zero point) and quantizing with the same parameters returns the original bits.", "quantifier": "all scales and zero points", "why_tests_cant": "continuous parameters", "anchors": ["larq_compute_engine/tflite/kernels/quantization.cc: DequantizeEval, QuantizeEval"]}
{"id": "C31", "title": "Converter constant folding agrees with the runtime kernels", "statement": "Folding quantize/dequantize of constants in the converter gives the tensor the runtime op would compute.", "quantifier": "all constant tensors, scales, zero points", "why_tests_cant": "all tensors", "anchors": ["larq_compute_engine/mlir/transforms/bitpack.cc: Bitpack, Unpack", "larq_compute_engine/tflite/kernels/quantization.cc"]}
{"id": "C32", "title": "Comparison rewrites before quantisation preserve every bit", "statement": "Quantize(x>=0) -> Quantize(x), Quantize(x>=t) -> Quantize(x-t), Quantize(l<=r)->Quantize(r>=l) preserve the packed bit for all finite float32 x and t (IEEE arithmetic including subnormals and overflow).", "quantifier": "all finite float32 values", "why_tests_cant": "2^64 pairs; relies on gradual underflow", "anchors": ["larq_compute_engine/mlir/transforms/optimize_patterns_common.td lines 17-45", "larq_compute_engine/mlir/transforms/prepare_patterns_common.td"]}
{"id": "C33", "title": "Sign-pattern rewrites in the converter preserve results", "statement": "Rewriting select(x>=0,1,-1) and Sign(Sign(x)+c) to quantize/dequantize preserves the value for every x.", "quantifier": "all x and all accepted constants c", "why_tests_cant": "the constant is not checked by the pattern", "anchors": ["larq_compute_engine/mlir/transforms/prepare_patterns_common.td"]}
{"id": "C34", "title": "Recognising a binary convolution preserves its result", "statement": "When the converter replaces Conv2D(dequantized x, filter) by LceBconv2d with sign(filter) and multiplier |filter[0,0,0,o]|, the result is unchanged.", "quantifier": "all filters accepted by the check, all inputs", "why_tests_cant": "tolerance 0.005 accepted by the check", "anchors": ["larq_compute_engine/mlir/transforms/prepare_tf.cc: IsBinaryFilter, GetScaleVector", "larq_compute_engine/mlir/transforms/prepare_patterns_common.td"]}
{"id": "C35", "title": "Fusing add/sub/mul/div/activation into the binary convolution preserves results", "statement": "Each fusion rewrite on LceBconv2d preserves the output for every input in exact arithmetic, and the activation fusion only fires when it is valid.", "quantifier": "all inputs, multipliers and biases", "why_tests_cant": "all values", "anchors": ["larq_compute_engine/mlir/transforms/optimize_patterns_common.td"]}
{"id": "C36", "title": "Removing tensors when stripping I/O quantisation keeps the graph meaning", "statement": "After the Python utility removes tensors, every remaining reference points to the same tensor as before, provided no removed tensor is still referenced.", "quantifier": "all graphs and removal sets", "why_tests_cant": "all graphs", "anchors": ["larq_compute_engine/mlir/python/util.py: _remove_tensors_from_model, modify_integer_quantized_model_io_type, strip_lcedequantize_ops"]}
{"id": "C37", "title": "Removed tensors are never still referenced", "statement": "The utility never removes a tensor that is still used.", "quantifier": "all graphs", "why_tests_cant": "graphs with a second consumer are rare in tests", "anchors": ["larq_compute_engine/mlir/python/util.py"]}
{"id": "C38", "title": "Accepted shapes are consistent: output shape and element counts", "statement": "If Prepare succeeds, the output tensor has the shape [batch, oh, ow, channels_out] (or ceil(channels_out/32) when bitpacked), oh/ow are the SAME/VALID sizes, groups divide the channels, and all the shape preconditions the kernels assert hold, so evaluation makes no out-of-bounds access.", "quantifier": "all shapes and attributes", "why_tests_cant": "all shapes", "anchors": ["larq_compute_engine/tflite/kernels/bconv2d.cc: Prepare", "larq_compute_engine/core/bconv2d/optimized_bgemm.h"]}
{"id": "C39", "title": "SAME/VALID geometry covers the image", "statement": "For SAME padding, output size is ceil(in/stride) and the padding split is floor(total/2) before; for VALID, every tap lies inside the image.", "quantifier": "all sizes, strides, dilations", "why_tests_cant": "all integers", "anchors": ["larq_compute_engine/tflite/kernels/bconv2d.cc: Prepare (ComputePaddingHeightWidth)"]}
{"id": "C40", "title": "Kernel registration picks the documented implementation", "statement": "The reference flag wins over the indirect flag; otherwise the BGEMM kernel if built with ruy, else reference; all LCE ops are registered for every flag combination. The benchmark tool runs the kernel its flags ask for and the default one without flags; the Java library registers the default one.", "quantifier": "all flag combinations", "why_tests_cant": "finite, but configuration dependent builds are not all tested", "anchors": ["larq_compute_engine/tflite/kernels/lce_ops_register.h", "larq_compute_engine/tflite/kernels/bconv2d.cc: Register_*", "larq_compute_engine/tflite/benchmark/lce_benchmark_main.cc main, RegisterSelectedOps", "larq_compute_engine/tflite/benchmark/lce_benchmark_tflite_model.cc Run, GetFlags, DefaultParams", "larq_compute_engine/tflite/java/lce_ops_jni.cc CreateOpResolver"]}
{"id": "C41", "title": "Setting the batch size only changes the batch dimension", "statement": "The batch-size pass turns a dynamic first dimension of each function input into 1 and changes no other dimension or argument.", "quantifier": "all functions and shapes", "why_tests_cant": "all shapes", "anchors": ["larq_compute_engine/mlir/transforms/set_batch_size.cc"]}
{"id": "C42", "title": "predict on a batch equals per-sample execution", "statement": "The Python interpreter's predict on any number of samples returns, for each output, the concatenation in order of per-sample results, and rejects inputs with wrong type/shape.", "quantifier": "all input lists", "why_tests_cant": "all lengths", "anchors": ["larq_compute_engine/tflite/python/interpreter_base.py", "larq_compute_engine/tflite/python/interpreter_wrapper_utils.h"]}
{"id": "C43", "title": "Group inference agrees between converter and runtime", "statement": "A filter shape accepted by the converter leads the runtime to infer the same number of groups.", "quantifier": "all channel counts", "why_tests_cant": "all integers", "anchors": ["larq_compute_engine/mlir/transforms/prepare_tf.cc: HasValidFilterShape", "larq_compute_engine/tflite/kernels/bconv2d.cc: Prepare"]}
{"id": "C44", "title": "Quantising a dequantised binary tensor", "statement": "Rewriting TFL_Quantize(LceDequantize(p)) into an LceDequantize with int8 output yields the same int8 tensor for every bitpacked tensor, scale and zero point.", "quantifier": "all packed tensors, positive scales, int8 zero points, shapes", "why_tests_cant": "Scale and zero point are continuous/large parameters; saturation and rounding boundaries must agree for all of them.", "anchors": ["larq_compute_engine/mlir/transforms/quantize_patterns.td", "larq_compute_engine/tflite/kernels/quantization.cc:LceDequantize"]}
{"id": "C45", "title": "Binarising a dequantised int8 tensor", "statement": "Rewriting LceQuantize(TFL_Dequantize(q)) into LceQuantize(q) on the int8 tensor gives the same packed words.", "quantifier": "all int8 tensors, positive scales, int8 zero points, shapes", "why_tests_cant": "Must hold for every scale, zero point and content.", "anchors": ["larq_compute_engine/mlir/transforms/quantize_patterns.td", "larq_compute_engine/core/bitpacking/bitpack.h:bitpack_matrix"]}
{"id": "C46", "title": "Quantising the output of a float binary convolution", "statement": "Rewriting TFL_Quantize(LceBconv2d float) into an int8-output LceBconv2d gives the same int8 values.", "quantifier": "all convolutions, multipliers, biases, scales, zero points and inputs", "why_tests_cant": "Rounding of ties depends on where the zero point is added; only a proof separates the generic case from the tie cases.", "anchors": ["larq_compute_engine/mlir/transforms/quantize_patterns.td", "larq_compute_engine/core/bconv2d/output_transform.h:OutputTransform"]}
{"id": "C47", "title": "Invoke returns the mathematical result after any history", "statement": "After any sequence of input resizes, AllocateTensors calls, input writes and Invokes that leaves the interpreter ready, Invoke of a binary convolution succeeds without undefined behaviour and the output tensor holds the convolution of the current input through the output transform (float, int8 or bitpacked), for the reference and BGEMM kernels under any block schedule, and for the indirect kernel if all Invokes saw the same shape and address.", "quantifier": "all call histories, shapes, attributes, operands, inputs, output buffer contents and GEMM schedules", "why_tests_cant": "Combines unboundedly many histories with all shapes and data; stale state only shows after particular sequences.", "anchors": ["larq_compute_engine/tflite/kernels/bconv2d.cc: Prepare, OneTimeSetup, Eval", "larq_compute_engine/core/bconv2d/reference.h", "larq_compute_engine/core/bconv2d/optimized_bgemm.h", "larq_compute_engine/core/bconv2d/optimized_indirect_bgemm.h"]}
{"id": "C48", "title": "The AArch64 4x4 binary GEMM kernel stores what the portable kernel stores", "statement": "On AArch64, one call of the 4x4 assembly kernel (without the streaming optimisation) terminates, reads only inside its operands, and stores exactly the bytes of the elements the portable C++ kernel stores for the same packed operands, block and output transform (float or int8), whatever the registers and scratch buffer held before.", "quantifier": "all packed operands, depths, strides, block positions and sizes (including partial blocks at the matrix edge), output transforms, initial register and scratch contents", "why_tests_cant": "The control flow depends on depth and on block position; a register reused too early or a wrong edge mask shows only for particular sizes.", "anchors": ["larq_compute_engine/core/bgemm/kernels_aarch64.h:BinaryKernelNeonOutOfOrder4x4", "larq_compute_engine/core/bgemm/kernels.h"]}
{"id": "C49", "title": "Binary GEMM through the AArch64 4x4 kernel is correct", "statement": "BGEMM running the 4x4 assembly kernel writes to each destination element the output transform of the binary product of its row and column, and nothing else, for any legal block schedule and any interleaving of the threads' stores.", "quantifier": "all matrix sizes, operands, schedules, interleavings, output transforms", "why_tests_cant": "Thread interleavings and schedules are unboundedly many.", "anchors": ["larq_compute_engine/core/bgemm/bgemm.h:BGemm", "larq_compute_engine/core/bgemm/kernels_aarch64.h"]}
{"id": "C50", "title": "The streaming variant of the 4x4 kernel computes the same result", "statement": "Enabling ruy's MAX_STREAMING optimisation (the default) in the 4x4 assembly kernel does not change what is stored.", "quantifier": "all depths, operands, blocks and output transforms", "why_tests_cant": "The unrolled loop's bound is right only for some depths; tests use few large depths.", "anchors": ["larq_compute_engine/core/bgemm/kernels_aarch64.h: RUY_OPT_ENABLED(RUY_OPT_MAX_STREAMING)"]}
{"id": "C51", "title": "The AArch64 8x4 binary GEMM kernel is the portable kernel with 16-bit accumulators", "statement": "One call of the 8x4 assembly kernel (float or int8 output) terminates, reads only inside its operands, and stores exactly the bytes the portable C++ kernel would store for the same packed operands if its accumulators wrapped at 2^16; hence exactly what the portable kernel stores whenever the sums fit in 16 bits.", "quantifier": "all packed operands, depths, strides, block positions and sizes (including partial blocks), output transforms, initial register and scratch contents", "why_tests_cant": "Control flow depends on depth and block position and overflow depends on the data.", "anchors": ["larq_compute_engine/core/bgemm/kernels_aarch64.h:BinaryKernelNeonOutOfOrder8x4", "larq_compute_engine/core/bgemm/kernels.h"]}
{"id": "C52", "title": "Binary GEMM through the AArch64 8x4 kernel is correct", "statement": "BGEMM running the 8x4 assembly kernel writes to each destination element the output transform of the binary product of its row and column, for any legal block schedule and any interleaving of the threads' stores, provided every product is below 2^16.", "quantifier": "all matrix sizes, operands, schedules, interleavings, output transforms", "why_tests_cant": "Thread interleavings and schedules are unboundedly many.", "anchors": ["larq_compute_engine/core/bgemm/bgemm.h:BGemm", "larq_compute_engine/core/bgemm/kernels_aarch64.h"]}
{"id": "C53", "title": "Bit-packed output of the AArch64 8x4 kernel", "statement": "BGEMM writing bit-packed output through the 8x4 assembly kernel sets bit i of column j exactly when the product exceeds threshold i, leaves every padding bit of the last word 0, and does not disturb other words, although threads store single bytes of shared 32-bit words.", "quantifier": "all matrix sizes (also row counts that are not multiples of 8 or 32), operands, thresholds, schedules and interleavings of the byte stores", "why_tests_cant": "Byte stores of different calls fall into the same word; races and edge masks depend on sizes and timing.", "anchors": ["larq_compute_engine/core/bgemm/kernels_aarch64.h:BinaryKernelNeonOutOfOrder8x4", "larq_compute_engine/core/bconv2d/optimized_bgemm.h:BConv2DOptimizedBGEMM"]}
{"id": "C54", "title": "The optimised convolution on AArch64 writes what the reference convolution writes", "statement": "On AArch64 the optimised BGEMM convolution, with the assembly kernel the dispatch selects (8x4 with 16-bit accumulators for float, int8 and bit-packed output; 4x4 with 32-bit accumulators for float and int8), leaves in the output tensor exactly the bytes of the reference kernel's output.", "quantifier": "all well-formed convolutions (shapes, strides, dilations, VALID or SAME-one padding), inputs, filters, output transforms, thread schedules and interleavings", "why_tests_cant": "The dispatch condition bounds the number of channels, not the number of words, and must rule out overflow for all data.", "anchors": ["larq_compute_engine/core/bconv2d/optimized_bgemm.h:BConv2DOptimizedBGEMM", "larq_compute_engine/tflite/kernels/bconv2d.cc:EvalOptBGEMM", "larq_compute_engine/core/bgemm/kernels_aarch64.h"]}
{"id": "C55", "title": "The AArch64 kernels read per-channel arrays in bounds", "statement": "The assembly kernels read the multiplier, bias and threshold arrays only inside what one-time setup allocates (out_c + 4 multipliers and biases, out_c thresholds).", "quantifier": "all numbers of output channels, blocks and depths", "why_tests_cant": "An over-read of a few floats is silent unless the allocation ends at a page boundary.", "anchors": ["larq_compute_engine/core/bgemm/kernels_aarch64.h", "larq_compute_engine/tflite/kernels/bconv2d.cc:OneTimeSetup"]}
{"id": "C56", "title": "The AArch64 indirect kernels write what the reference convolution writes", "statement": "On AArch64 the indirect convolution, whenever it selects one of the assembly kernels (8x4x1, 8x4x2, 8x4x4; depth one or more; grouped or not; float or int8 output), writes on every range of output pixels starting at a multiple of 4 exactly what the reference kernel writes there, and nothing outside the range.", "quantifier": "all well-formed convolutions (shapes, strides, dilations, groups, VALID or SAME-one padding), inputs, filters, output transforms, pixel ranges and initial register contents", "why_tests_cant": "The assembly software-pipelines loads across filter taps, channel blocks and groups, with a variant per depth and group shape; accumulators are 16 bits wide and overflow only for particular shapes and data.", "anchors": ["larq_compute_engine/core/indirect_bgemm/kernel_8x4x1_aarch64.h", "larq_compute_engine/core/indirect_bgemm/kernel_8x4x2_aarch64.h", "larq_compute_engine/core/indirect_bgemm/kernel_8x4x4_aarch64.h", "larq_compute_engine/tflite/kernels/bconv2d.cc:EvalOptIndirectBGEMM"]}
{"id": "C57", "title": "The AArch64 indirect kernels read memory in bounds", "statement": "The assembly indirect kernels read only inside the packed weights, the indirection buffer, the input tensor, the zero buffer and the per-channel arrays as one-time setup allocates them.", "quantifier": "all well-formed convolutions for which an assembly kernel is selected", "why_tests_cant": "The kernels load ahead; an over-read of a few words is silent unless the allocation ends at a page boundary.", "anchors": ["larq_compute_engine/core/indirect_bgemm/kernel_8x4x1_aarch64.h", "larq_compute_engine/core/indirect_bgemm/kernel_8x4x2_aarch64.h", "larq_compute_engine/core/indirect_bgemm/kernel_8x4x4_aarch64.h", "larq_compute_engine/core/indirect_bgemm/kernel.h", "larq_compute_engine/tflite/kernels/bconv2d.cc:OneTimeSetup"]}
{"id": "C58", "title": "The 32-bit Arm BGEMM kernel computes what the portable kernel computes", "statement": "One call of the 32-bit Arm assembly kernel terminates and stores exactly the output elements the portable kernel stores for the same packed operands (float: bit for bit; int8: up to the rounding of C60), and writes no other byte.", "quantifier": "all packed operands, depths below 2^23 words, block ranges, destination sizes, output transforms, and initial register and scratch contents", "why_tests_cant": "The assembly can only run on 32-bit Arm hardware, and its boundary handling depends on every combination of sizes.", "anchors": ["larq_compute_engine/core/bgemm/kernels_arm32.h:BinaryKernelNeonOutOfOrder4x4", "larq_compute_engine/core/bgemm/kernels_common.h:MakeBinaryKernelParams"]}
{"id": "C59", "title": "A matrix product on 32-bit Arm is the binary product", "statement": "BGEMM with the 32-bit Arm kernel leaves in every destination element the output transform of the binary product of its row and column, whatever the block schedule and the interleaving of the threads.", "quantifier": "all matrix sizes, operands, schedules, interleavings", "why_tests_cant": "Schedules and interleavings are chosen by ruy at run time.", "anchors": ["larq_compute_engine/core/bgemm/kernels_arm32.h", "larq_compute_engine/core/bgemm/bgemm.h:BGemm", "larq_compute_engine/core/bgemm/kernels.h"]}
{"id": "C60", "title": "int8 outputs on 32-bit Arm are the nearest int8 values", "statement": "Every int8 element stored by the 32-bit Arm kernel is a nearest integer of the float result of its output transform, saturated to int8.", "quantifier": "all operands and output transforms with a finite float result", "why_tests_cant": "Wrong results need a negative value whose fraction lies in an interval of width 1/256.", "anchors": ["larq_compute_engine/core/bgemm/kernels_arm32.h:BinaryKernelNeonOutOfOrder4x4", "larq_compute_engine/core/bconv2d/output_transform.h:round"]}
{"id": "C61", "title": "int8 outputs on AArch64 are the nearest int8 values, as in the portable kernel", "statement": "Every int8 element stored by the AArch64 4x4 kernel is a nearest integer of the float result, saturated to int8, and the same integer the portable output transform gives.", "quantifier": "all operands and output transforms with a finite float result", "why_tests_cant": "Only exact ties distinguish the two roundings.", "anchors": ["larq_compute_engine/core/bgemm/kernels_aarch64.h:BinaryKernelNeonOutOfOrder4x4", "larq_compute_engine/core/bconv2d/output_transform.h:round"]}
{"id": "C62", "title": "Accuracy of the float32 convolution output", "statement": "With float32 post-activation multipliers and biases (finite, at most 2^100 in magnitude), the float32 value LceBConv2d writes (one-time setup in double, stored as float; then a float32 multiply and add) is finite and differs from the real number mult*act(conv)+bias by at most 2^-21*(|bias| + taps*|mult|) + 2^-125, at every output position, for every fused activation and padding.", "quantifier": "all shapes with at most 2^22 taps, all tensors, all float32 multipliers and biases in range, all activations and paddings", "why_tests_cant": "an error bound must hold for the worst rounding of every operand combination", "anchors": ["larq_compute_engine/tflite/kernels/bconv2d.cc: OneTimeSetup", "larq_compute_engine/core/bconv2d/output_transform.h: OutputTransform<float>::Run", "larq_compute_engine/core/bconv2d/reference.h: BConv2DReference"]}
{"id": "C63", "title": "Accuracy of the int8 convolution output", "statement": "With an int8 output of scale s (a normal float32) and zero point z, the value written is the saturation of an integer within 1/2 + d of the real value (mult*act(conv)+bias)/s + z, where d = 2^-21*((|bias| + taps*|mult|)/s + |z|) + 2^-125. So it equals the exactly rounded value unless the real value is within d of a half-integer, and is off by at most one whenever d < 1.", "quantifier": "all shapes with at most 2^22 taps, all tensors, float32 multipliers, biases and scales in range, zero points, activations and paddings", "why_tests_cant": "as C62; the worst cases are near ties", "anchors": ["larq_compute_engine/tflite/kernels/bconv2d.cc: OneTimeSetup", "larq_compute_engine/core/bconv2d/output_transform.h: OutputTransform<std::int8_t>::Run, round, saturate"]}
{"id": "C64", "title": "The optimisation pass preserves results in whatever order it rewrites", "statement": "Take any SSA program (function) and input on which it runs. Whatever finite sequence of rewritings, constant folds and dead-code removals the converter's optimize pass performs (comparison-to-quantize, fusing add/sub/mul/div and activations into binary convolutions, quantise/max-pool swap, bitpacked-output conversion), in any order and interleaving, the resulting program runs on that input and every function result has the same type, shape and elements as before. Arithmetic is exact; broadcasting and shapes are modelled.", "quantifier": "all programs, inputs, rewriting orders and targets", "why_tests_cant": "unit tests check one pattern at a time on fixed snippets; the greedy driver interleaves them in an order that depends on the whole graph", "anchors": ["larq_compute_engine/mlir/transforms/optimize.cc: OptimizeLCE::runOnOperation, GetSignsOfVectorAndBroadcast4D, GetBitpackedOutputThresholds", "larq_compute_engine/mlir/transforms/optimize_patterns_common.td", "larq_compute_engine/mlir/transforms/optimize_patterns_target_arm.td", "larq_compute_engine/mlir/transforms/bitpack_activations_patterns.td"]}
{"id": "C65", "title": "The optimisation pass terminates", "statement": "No order of applying the optimize pass's patterns, folds and dead-code removals goes on for ever: from a program of n operations at most 36n actions are possible, and SSA form is kept throughout.", "quantifier": "all programs and all rewriting orders", "why_tests_cant": "termination over all orders and programs", "anchors": ["larq_compute_engine/mlir/transforms/optimize.cc: OptimizeLCE::runOnOperation", "larq_compute_engine/mlir/transforms/optimize_patterns_common.td", "larq_compute_engine/mlir/transforms/bitpack_activations_patterns.td"]}
{"id": "C66", "title": "The op-removal and prepare passes preserve results in whatever order they rewrite", "statement": "Take any TensorFlow-dialect function (SSA program) and input on which it runs. Whatever finite sequence of actions the converter's op-removal and prepare passes perform (dropping identities, recognising larq quantisers written with Select/SelectV2 or Sign, turning Conv2D with binary filters into binary convolutions with and without explicit padding, constant folds, dead-code removals), in any order and interleaving, the resulting program is in SSA form, runs on that input, and every function result has the same type, shape and elements as before. Arithmetic is exact; shapes and broadcasting are modelled.", "quantifier": "all programs, inputs, rewriting orders and targets", "why_tests_cant": "unit tests check one pattern at a time on fixed snippets; the greedy driver interleaves patterns, folds and removals in an order that depends on the whole graph", "anchors": ["larq_compute_engine/mlir/transforms/prepare_tf.cc: PrepareLCE::runOnOperation, IsBinaryFilter, GetScaleVector, IsSamePadding, HasValidFilterShape", "larq_compute_engine/mlir/transforms/prepare_patterns_common.td", "larq_compute_engine/mlir/transforms/prepare_patterns_target_arm.td", "larq_compute_engine/mlir/transforms/op_removal_patterns.td"]}
{"id": "C67", "title": "The op-removal and prepare passes terminate", "statement": "No order of applying the patterns, folds and removals of the op-removal and prepare passes goes on for ever: from a program of n operations at most 13n actions are possible.", "quantifier": "all programs and all rewriting orders", "why_tests_cant": "termination over all orders and programs", "anchors": ["larq_compute_engine/mlir/transforms/prepare_tf.cc: PrepareLCE::runOnOperation", "larq_compute_engine/mlir/transforms/prepare_patterns_common.td", "larq_compute_engine/mlir/transforms/op_removal_patterns.td"]}
{"id": "C68", "title": "A converted model, executed, computes what the exported graph computes", "statement": "Take a TensorFlow graph (in the fragment of C66) through the op-removal, prepare, optimisation and bitpacking passes, in any order of rewriting, and execute the result operator by operator in memory: LceQuantize, LceDequantize, LceBMaxPool2d and LceBconv2d with LCE's kernels (reference, optimised BGEMM or optimised indirect BGEMM), everything else with TFLite builtins that do what the operator says. Then no operator rejects its node, no kernel leaves its buffers, and the output buffers hold the values of the TensorFlow graph on the inputs; whatever the output buffers contained, whatever resizes, allocations and invocations came before, and whatever legal schedule the matrix multiplication uses. Arithmetic on float tensors is exact here (C62, C63 bound the rounding).", "quantifier": "all graphs of the fragment, all inputs, all rewriting orders, all histories of each convolution node, all schedules and buffer contents", "why_tests_cant": "needs all graphs, all rewriting orders and all execution histories at once", "anchors": ["larq_compute_engine/mlir/tf_tfl_passes.cc", "larq_compute_engine/mlir/transforms/bitpack_weights_patterns.td", "larq_compute_engine/tflite/kernels/bconv2d.cc: Prepare, Eval", "larq_compute_engine/tflite/kernels/bmaxpool.cc", "larq_compute_engine/tflite/kernels/quantization.cc"]}
{"id": "C69", "title": "Fusing padding into convolutions keeps the model's outputs and stops", "statement": "The padding-fusion pass, which turns tfl.pad / tfl.padv2 with zeros followed by a VALID tfl.conv_2d or tfl.depthwise_conv_2d into a SAME convolution, keeps the values of all outputs of the program, whatever the program around it and in whatever order the rewrites, constant folds and removals of dead operations happen; it takes a number of steps linear in the program; and composed with the preparation and optimisation passes and execution (C66, C64, C68) the output buffers hold what the TensorFlow graph computes.", "quantifier": "all programs, all inputs, all rewriting orders, all strides, dilations, kernel sizes, paddings, depth multipliers, activations and biases", "why_tests_cant": "needs all programs and all rewriting orders", "anchors": ["larq_compute_engine/mlir/transforms/fuse_padding.cc", "larq_compute_engine/mlir/transforms/fuse_padding.td", "larq_compute_engine/mlir/transforms/padding.h"]}
{"id": "C70", "title": "The optimised convolution on 32-bit Arm, and int8 convolutions on Arm, write what the reference convolution writes", "statement": "On 32-bit Arm, the whole optimised BGEMM convolution (im2col, packing, any legal block schedule and interleaving, the assembly kernel) terminates without leaving its buffers and, for float outputs, writes exactly the bytes of the reference convolution. For int8 outputs every element is within 1/2 + 1/256 of the float output of the reference convolution and is the nearest int8 value except for the results characterised in C60; on AArch64 it is always a nearest int8 value.", "quantifier": "all inputs, filters, geometries, multipliers and biases, all block schedules and store interleavings, all initial contents of registers, scratch and output buffers", "why_tests_cant": "needs all inputs, geometries and schedules", "anchors": ["larq_compute_engine/core/bgemm/kernels_arm32.h", "larq_compute_engine/core/bgemm/kernels_aarch64.h", "larq_compute_engine/core/bconv2d/optimized_bgemm.h"]}
{"id": "C71", "title": "Float outputs of the optimised kernels, including the zero-padding correction, are accurate in IEEE arithmetic", "statement": "With float output, both optimised kernels (BGEMM for every block schedule, indirect BGEMM with groups, strides and dilation) return, for every output element, a finite float within 2^-20 (|bias| + taps |mult|) + 2^-124 of mult * act(conv) + bias, where conv pads with ones or, for SAME padding with value 0, with zeros; this covers the correction cache, whose tap sums are exact, and the addition of the correction to the rounded output. So reference and optimised kernels agree up to 1.5 * 2^-20 of that magnitude. They need not agree bit for bit, nor in the sign: a following LceQuantize can binarise the two differently.", "quantifier": "all geometries Prepare accepts with at most 2^22 taps (filter inside the image for zero padding), all inputs and filters, all finite multiplier and bias words of magnitude at most 2^100, all block schedules, all previous buffer contents", "why_tests_cant": "rounding errors depend on every combination of multiplier, bias, accumulator and number of taps outside the image; a test compares a few of them with a chosen tolerance", "anchors": ["larq_compute_engine/core/bconv2d/zero_padding_correction.h CacheCorrectionValues, ApplyCorrection", "larq_compute_engine/core/bconv2d/optimized_bgemm.h BConv2DOptimizedBGEMM", "larq_compute_engine/core/bconv2d/optimized_indirect_bgemm.h BConv2DOptimizedIndirectBGEMM", "larq_compute_engine/tflite/kernels/bconv2d.cc OneTimeSetup, EvalOptBGEMM, EvalOptIndirectBGEMM"]}
{"id": "C72", "title": "The model file contains the converted program, and running it computes the program's values", "statement": "For every verified program the last passes succeed: each binary convolution with a constant filter gets its filter packed, each LCE operator becomes a custom operator with one of the four codes under which the runtime registers its kernels, with its attributes as options; other operators, results, operands and order are unchanged; the translation pass reads back exactly the same operators and attributes, and leaves foreign custom operators alone. When the interpreter runs the file, with either registration flag, every operator is found, every kernel accepts its options, and in every execution the memory ends up holding the values of the program; for a program converted from a TensorFlow graph, the output buffers hold what the graph computes.", "quantifier": "all programs (any operators, attributes, constants), all conversions (any rewriting order), both registration flags, all inputs, histories, schedules and buffer contents", "why_tests_cant": "tests convert a few models and compare a few outputs; a wrong key, enum value or operand order shows only for particular attributes", "anchors": ["larq_compute_engine/mlir/transforms/legalize_tflite.cc LegalizeToCustomOp", "larq_compute_engine/mlir/transforms/translate_tflite.cc TranslateToLCEPattern", "larq_compute_engine/mlir/transforms/bitpack_weights_patterns.td", "larq_compute_engine/mlir/transforms/bitpack.cc Bitpack", "larq_compute_engine/mlir/ir/lce_ops.cc buildCustomOptions", "larq_compute_engine/tflite/kernels/lce_ops_register.h RegisterLCECustomOps", "larq_compute_engine/tflite/kernels/bconv2d.cc Init"]}
{"id": "C73", "title": "The quantise pass keeps what the network computes, in any order", "statement": "Converting a quantised network (tfl.quantize and tfl.dequantize around LCE operators), in whatever order the greedy driver applies the patterns, folds constants and removes dead operations, the pass stops, and the resulting program gives, on every input, the outputs of the original with the quantise/dequantise pairs on convolution multipliers and biases left out: LceQuantize reads int8 tensors, LceDequantize and LceBconv2d write them, with the same int8 values.", "quantifier": "all programs, attributes, constants, scales, zero points, inputs, and all rewriting orders", "why_tests_cant": "tests run a few graphs in the driver's order; patterns interact (one operation may match two patterns), and rounding and saturation must agree for every scale and zero point", "anchors": ["larq_compute_engine/mlir/transforms/quantize.cc LCEQuantizePass", "larq_compute_engine/mlir/transforms/quantize_patterns.td", "larq_compute_engine/tflite/kernels/quantization.cc", "larq_compute_engine/core/bconv2d/output_transform.h OutputTransform<int8>"]}
{"id": "C74", "title": "A quantised model, run by the interpreter, computes what the quantised graph computes", "statement": "For every network with tfl.quantize/tfl.dequantize around LCE operators, after the quantise pass (in any rewriting order) the interpreter accepts every LCE operator of the result, and every execution - with the reference, BGEMM or indirect convolution kernel, any matrix-multiplication schedule, any history of the convolution nodes and any contents of the output buffers - succeeds and ends with the output buffers holding exactly the int8 (or float) values the network computes, parameter pairs left out; int8 results are between -128 and 127.", "quantifier": "all programs, attributes, constants, scales, zero points, inputs, rewriting orders, kernels, schedules, histories and buffer contents", "why_tests_cant": "tests compare a few int8 models on a few inputs with one kernel; saturation, rounding, packing and kernel choice interact for every shape and scale", "anchors": ["larq_compute_engine/mlir/transforms/quantize.cc LCEQuantizePass", "larq_compute_engine/tflite/kernels/quantization.cc QuantizeEval, DequantizeEval", "larq_compute_engine/tflite/kernels/bconv2d.cc Prepare, Eval, OneTimeSetup", "larq_compute_engine/core/bconv2d/output_transform.h OutputTransform<int8>"]}
{"id": "C75", "title": "The converter runs the pipeline as asked and returns the input and output types asked for", "statement": "convert_saved_model and convert_keras_model refuse unsupported types, targets and non-float32 models before doing anything; otherwise the pass pipeline is only ever run for the requested target, with exactly the requested default range, on inputs whose shapes are completely known; a Keras model is converted through a SavedModel if that works and through a GraphDef otherwise; a float32 request returns the pipeline's model unchanged, an int8 request returns a model with the same number and order of inputs and outputs, all of them int8.", "quantifier": "all arguments, models (saved, Keras; any shapes, graphs, entry functions), all behaviours of TensorFlow's importers and of the pass pipeline including failures at any step", "why_tests_cant": "tests convert a handful of models with default backends; which call fails, which exception is swallowed and which inputs were quantised vary independently", "anchors": ["larq_compute_engine/mlir/python/converter.py convert_keras_model, convert_saved_model, _validate_options, _contains_training_quant_op", "larq_compute_engine/mlir/python/common.cc GetLCETarget, GetNumInputs, ConvertMLIRModuleToTFLiteFlatBuffer", "larq_compute_engine/mlir/python/saved_model_tfl_flatbuffer.cc ConvertSavedModelToTFLiteFlatBuffer", "larq_compute_engine/mlir/python/graphdef_tfl_flatbuffer.cc ConvertGraphDefToTFLiteFlatBuffer"]}
{"id": "C76", "title": "Turning detection post-processing to int8 keeps the model's results", "statement": "The pass that makes TFLite_Detection_PostProcess read the tensors behind its Dequantize operands keeps every function's outputs, their types and their values, provided the integer kernel agrees with the float kernel on dequantised tensors; the new operator's scores are quantised as the scores it reads, every input it reads is int8, the pass never aborts, stops after at most three steps per operator, leaves no such float operator behind, and touches no other operator with effects.", "quantifier": "all programs in static single assignment form (any sizes, any number of detection operators, shared operands), all orders in which the pattern and dead code elimination are applied, all inputs, all kernels with the stated agreement", "why_tests_cant": "tests run the pass on one graph with int8 operands; the claim is about every graph, sharing and order of rewriting", "anchors": ["larq_compute_engine/mlir/transforms/detection_postprocess.cc RemoveDequantizeBeforePostProcess, DetectionPostProcess::runOnOperation", "larq_compute_engine/mlir/tf_tfl_passes.cc AddQuantizationPasses"]}
{"id": "C77", "title": "The file of a quantised model keeps every operator, scale and zero point, and running it computes the model", "statement": "For every verified quantised program whose tensors carry the scales and zero points its operators use, the file consists of custom operators with the four registered codes and the unchanged builtins, no LCE dialect operator being left; operators, attributes, scales, zero points, order and operands are recovered from the file and its tensor table (convolutions reading their packed filter). When the interpreter runs the file, with either registration flag, every operator is found, its options are accepted, the int8 or float or packed kernel is chosen by the types of the tensors alone, and every execution ends with the output buffers holding the int8 or float values the network computes before the quantise pass (pairs around parameters left out).", "quantifier": "all programs, attributes, constants, scales, zero points, rewriting orders of the quantise pass, registration flags, inputs, histories, schedules and buffer contents", "why_tests_cant": "tests convert a few int8 models; a scale taken from the wrong tensor, or a kernel chosen by the wrong type, shows only for particular operators and values", "anchors": ["larq_compute_engine/mlir/transforms/legalize_tflite.cc LegalizeToCustomOp", "larq_compute_engine/mlir/transforms/quantize.cc LCEQuantizePass", "larq_compute_engine/tflite/kernels/bconv2d.cc Prepare, Eval", "larq_compute_engine/tflite/kernels/quantization.cc QuantizeEval, DequantizeEval", "larq_compute_engine/tflite/kernels/lce_ops_register.h RegisterLCECustomOps"]}
{"id": "C78", "title": "Of the whole conversion, only TensorFlow's own passes and dropped parameter quantisation can change a model's results", "statement": "For every choice of options and every run of the converter's pipeline, whatever TensorFlow's and MLIR's passes do as long as they leave well-formed programs, the results of the written file, run by the interpreter with either registration flag, come from the model's results through the changes made by those passes, and by dropping quantise/dequantise pairs around convolution parameters, alone, in the pipeline's order: if those change nothing the results are equal, and if each is bounded the total error is at most the sum. The passes of this repository run in the order op removal, prepare, optimise, optimise, bitpack, fuse padding, quantise (exactly when quantisation is asked for, again after default ranges), legalise (last); the file contains no LCE operator other than the four registered custom operators.", "quantifier": "all option combinations, all behaviours of foreign passes, all models, inputs, rewriting orders, histories, schedules and buffer contents", "why_tests_cant": "tests run the pipeline on a few models; where an error can enter is a statement about every composition of passes", "anchors": ["larq_compute_engine/mlir/tf_tfl_passes.cc AddQuantizationPasses, AddPreVariableFreezingTFToLCETFLConversionPasses, AddPostVariableFreezingTFToLCETFLConversionPasses", "larq_compute_engine/mlir/tf_to_tfl_flatbuffer.cc ConvertTFExecutorToTFLOrFlatbuffer"]}
{"id": "C79", "title": "Float and int8 results keep their accuracy whichever multiply-adds the compiler fuses; the builds are not bit-identical", "statement": "However the compiler contracts the multiplication-additions of the bias set-up (in double) and of the output transform (in float) into fused ones, per channel and per value, the convolution's float outputs of the reference, indirect and tiled kernels (zero padding and its correction included) stay finite and within the error bound stated for the unfused arithmetic, and the int8 outputs stay the nearest integer up to that bound; two builds therefore differ by at most twice the bound. Bit-identity of two builds is false.", "quantifier": "all convolutions, packed inputs and filters, finite multipliers and biases of bounded magnitude, output scales and zero points, all choices of fused operations, all tilings and schedules", "why_tests_cant": "a test binary has one choice of fused operations; the bound concerns all choices and all values", "anchors": ["larq_compute_engine/tflite/kernels/bconv2d.cc OneTimeSetup", "larq_compute_engine/core/bconv2d/output_transform.h OutputTransform::Run", "larq_compute_engine/core/bconv2d/zero_padding_correction.h"]}
{"id": "C80", "title": "What the interpreter reports about its inputs and outputs is what predict accepts and returns", "statement": "If the types of a model's inputs can be reported, predict runs the model exactly on lists of arrays with the reported types and shapes, on tensors holding those arrays' elements; every other list raises an exception without running the model and changes nothing but input contents. Returned arrays have the reported output types and shapes and hold the output tensors. Scales and zero points reported are those of the model file: None without quantisation, one number per tensor, the list of scales per channel. A common nonzero zero point of several channels is reported: false.", "quantifier": "all models, tensor types, shapes, quantisation parameters, lists of arrays and interpreter states", "why_tests_cant": "tests use a few models with float and int8 inputs; the claim is about every type, shape and rejected input", "anchors": ["larq_compute_engine/tflite/python/interpreter_wrapper_utils.h InterpreterWrapperBase, SetTensorFromNumpy, TfLiteTypeFromPyType, PyTypeFromTfLiteType"]}
{"id": "C81", "title": "A failed conversion returns no file, and a reported success is the translation of what the whole pipeline made", "statement": "A conversion returns bytes only if the module has no TensorFlow 1 control flow, every pass of the pipeline succeeded in its order (freezing included), and the bytes are the translation of the module they made, which passes verification; conversely these conditions suffice, whatever error messages passes emitted on the way (exporting MLIR instead turns any such message into an error). TensorFlow 1 control flow at any depth is refused before a pass runs; no pass runs on what a failed pass left; in every other case Python gets an exception, never bytes. If passes do what is asked of them, the returned file is that of a program whose results differ from the model's only by TensorFlow's passes and dropped parameter pairs. Tensor names in the file are the first 50 characters of the program's.", "quantifier": "all modules, configurations, behaviours of passes (results, failures and error messages), translations and verifiers", "why_tests_cant": "tests convert models that succeed; the claim is about every pass failing in every way at every point", "anchors": ["larq_compute_engine/mlir/tf_to_tfl_flatbuffer.cc ConvertTFExecutorToTFLOrFlatbuffer, IsValidGraph, IsControlFlowV1Op, TruncateOpOrArgLocNameMapper", "larq_compute_engine/mlir/python/common.cc ConvertMLIRModuleToTFLiteFlatBuffer"]}
{"id": "C82", "title": "predict in Python on a converted model returns the model's results, in the reported types and shapes", "statement": "Take a model, run it through the whole conversion pipeline, write the file, load it in the Python interpreter and call predict with arrays of the reported input types and shapes. Then predict raises nothing and returns one array per model output, with the types and shapes reported for the outputs, whose bytes hold values that differ from the original model's results on the same input only by what TensorFlow's passes and the dropped quantise/dequantise pairs may change; with passes that change nothing, exactly the model's results.", "quantifier": "all models and inputs, all pipeline runs in either configuration, all kernel registrations, all interpreters that run the file's operators in order, all encodings of tensors as bytes", "why_tests_cant": "the end-to-end tests compare a few converted networks on random inputs; this is about every model, every pass schedule and every input", "anchors": ["larq_compute_engine/tflite/python/interpreter_wrapper_utils.h predict", "larq_compute_engine/mlir/tf_to_tfl_flatbuffer.cc ConvertTFExecutorToTFLOrFlatbuffer", "larq_compute_engine/mlir/tf_tfl_passes.cc", "larq_compute_engine/tflite/kernels/lce_ops.cc"]}
{"id": "C83", "title": "Bit-packed outputs are the same whichever kernel or build computes them", "statement": "For one binary convolution with bit-packed output there is one array of words that the reference kernel, the indirect kernel, the portable matrix-product kernel (with any block size and any schedule of the threads) and the AArch64 assembly kernel all write, whatever the output memory and the memory behind the thresholds held; bit c of a pixel is set exactly when the convolution is below channel c's threshold. Hence on AArch64 too the operator, after any history of resizes, allocations and new inputs that leaves it ready, writes the mathematical result for the present input.", "quantifier": "all histories, convolution shapes, inputs, filters, thresholds, schedules, initial memory and register contents the kernels accept", "why_tests_cant": "a test compares kernels on a few shapes and schedules on one machine; this is about every shape, schedule and build at once", "anchors": ["larq_compute_engine/tflite/kernels/bconv2d.cc", "larq_compute_engine/core/bconv2d/reference.h", "larq_compute_engine/core/bconv2d/optimized_bgemm.h", "larq_compute_engine/core/bconv2d/optimized_indirect_bgemm.h", "larq_compute_engine/core/bgemm/kernels_aarch64.h"]}
{"id": "C84", "title": "Arm outputs are the reference kernel's, bit for bit", "statement": "For float outputs, every Arm assembly kernel (AArch64 with 16-bit and with 32-bit accumulators, 32-bit Arm) leaves in the output tensor exactly the binary32 numbers that the C++ output transform gives in the reference kernel, when its parameters are what OneTimeSetup computes from the multipliers and biases; with zero padding, what the indirect kernel gives, once the correction has been applied. So on AArch64 with one or VALID padding, after any history of resizes, allocations and new inputs that leaves the operator ready, every output is finite and within 2^-21 (|bias| + taps |multiplier|) + 2^-125 of the mathematical result for the present input. For int8 outputs, the AArch64 kernels leave the byte the reference kernel gives wherever the float value is finite and not halfway between two integers (there the assembly rounds to even, the C++ away from zero).", "quantifier": "all histories, convolution shapes, inputs, filters, multipliers, biases, fused activations, schedules, initial memory and register contents the kernels accept", "why_tests_cant": "a test compares a few numbers on one machine, usually up to a tolerance; this is equality of every bit, for every value of multiplier, bias and accumulator", "anchors": ["larq_compute_engine/core/bgemm/kernels_aarch64.h", "larq_compute_engine/core/bgemm/kernels_arm32.h", "larq_compute_engine/core/bconv2d/output_transform.h", "larq_compute_engine/tflite/kernels/bconv2d.cc"]}
