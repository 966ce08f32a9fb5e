{
 "C01": [
  "proved",
  "Float (IEEE patterns incl. -0, NaN, subnormals), any integer element type, bool; AArch64 path: see C03/C04."
 ],
 "C02": [
  "proved",
  "Both directions, float, int, bool."
 ],
 "C05": [
  "proved",
  "Statement as written is false: refuted with a witness ((1<<31)-1 when cols%32==31 and zero point above max); proved that this is the only undefined case for int8."
 ],
 "C06": [
  "proved",
  ""
 ],
 "C07": [
  "proved",
  "Even channels per group, as checked by Prepare."
 ],
 "C08": [
  "proved",
  "Exact rational arithmetic."
 ],
 "C09": [
  "proved",
  "Exact rational arithmetic; round_haz shown to be round-to-nearest, ties away."
 ],
 "C10": [
  "proved",
  "Stated via the convolution: accum = (K - conv)/2 > t iff 2t < K - conv."
 ],
 "C13": [
  "proved",
  "Portable 4x2 kernel; also any even-aligned pixel range. run is any output transform total on the channels."
 ],
 "C14": [
  "proved",
  "For any >=3 elements of memory after the thresholds."
 ],
 "C15": [
  "proved",
  "The claim as written is false: refuted with a witness (out_c=1 reads thresholds[1..3])."
 ],
 "C16": [
  "proved",
  "For every block shape (portable 4x2x1 and AArch64 8x4x{1,2,4})."
 ],
 "C24": [
  "proved",
  "From Prepare to the result, incl. SAME/VALID geometry."
 ],
 "C30": [
  "proved",
  "Proved for 0<scale<=2 and zp>-128; refuted outside (zp=-128; scale>2)."
 ],
 "C39": [
  "proved",
  ""
 ],
 "C17": [
  "proved",
  "Any kernel block sizes, legal schedule, store interleaving, packed-buffer contents; int32 accumulators in Z (see C23 for 16 bit)."
 ],
 "C18": [
  "proved",
  "For LHS kernel widths that are multiples of 32, as in the portable bitpacked kernel."
 ],
 "C19": [
  "proved",
  "groups = 1 (the BGEMM kernel supports no groups); geometry as computed by Prepare; im2col routines by contract."
 ],
 "C22": [
  "proved",
  "Claim as written is false: refuted with a witness (1x1 image, 3x3 SAME, 7296 channels); proved when filter taps <= batches*in_h*in_w."
 ],
 "C23": [
  "proved",
  ""
 ],
 "C20": [
  "proved",
  "Exact rational arithmetic for the float steps; effective filter fits in the input; no fused activation (enforced by Prepare)."
 ],
 "C21": [
  "proved",
  "Claim as written is false: refuted with a concrete witness (3x3 filter on a 2x2 image, zero SAME padding)."
 ],
 "C11": [
  "proved",
  "Exact rational arithmetic (the float rounding question is C12); VALID or one-padded SAME convolutions, every activation, every multiplier sign."
 ],
 "C12": [
  "proved",
  "False as written, refuted: with binary32 arithmetic for both the converter's threshold and the runtime's output, 9 taps, multiplier 0x1.12b26ap-2, bias -0x1.e0b83ap+0, accumulator 1 gives different bits. Proved: with binary32 multipliers and biases (zero or normal, at most 2^100) and at most 2^22 taps, every bit the fused program writes is the sign of the exact output r, and of the float32 output the unfused program writes, whenever |r| > 2^-19 (|bias| + taps |mult|); for a zero multiplier always. These two theorems use the classical real number axioms of the standard library (through Flocq)."
 ],
 "C32": [
  "proved",
  "All non-NaN binary32 values incl. infinities, subnormals, overflow; NaN shown to differ."
 ],
 "C33": [
  "proved",
  "select patterns proved; Sign(Sign(x)+c) proved equivalent exactly when 0<c<1, refuted for the arbitrary c the pattern accepts."
 ],
 "C25": [
  "proved",
  "Proved for no activation and RELU_N1_TO_1 (non-NaN tensors); refuted for RELU and RELU6, which the pattern also accepts. TFLite's float MaxPool is modelled from its documentation."
 ],
 "C26": [
  "proved",
  "Claim as written is false: refuted (4x4 image, 3x3 filter, stride 2, pads 1/1). Proved for stride 1 or whenever the totals split alike; output shape always; slack bounded by stride-1."
 ],
 "C31": [
  "proved",
  "proved for quantize and float dequantize folds as they are, and for the int8 dequantize fold with 1/scale in exact arithmetic; false as written for int8 in IEEE arithmetic: C31_double_scale_refuted (converter divides in double, runtime in float; scale 2/7 gives 4 vs 3)"
 ],
 "C44": [
  "proved",
  "for all packed tensors, scales and zero points, in exact arithmetic and, for every positive finite float32 scale, with the single-precision division of both programs"
 ],
 "C45": [
  "proved",
  "for all int8 tensors: dequantisation in exact arithmetic, and for every positive finite float32 scale in IEEE arithmetic (product in double then cast, or in single precision)"
 ],
 "C46": [
  "proved",
  "false as written: refuted by C46_tie_refuted (exact ties) and, in IEEE arithmetic away from exact ties, by C46_near_tie_refuted (100 against 101); proved equal except by one at exact ties that the zero point moves across zero; in IEEE arithmetic (C46_quantize_of_bconv_float32): never more than one apart, and equal unless the exact value is within about 2^-20 of its magnitude of a half-integer"
 ],
 "C34": [
  "proved",
  "false as written for every accepted filter (0.005 tolerance): C34_accepted_not_exact_refuted; proved exact for filters that are exactly binary, and within taps*0.005*|scale| for every accepted filter; exact arithmetic"
 ],
 "C35": [
  "proved",
  "exact arithmetic; constant operand is a scalar or per-channel vector (higher ranks are rejected by the runtime's Prepare)"
 ],
 "C28": [
  "proved",
  "Interpreter protocol (resize, allocate succeeding or failing, set input, invoke) modelled as event lists; Eval after any history is equivalent to a fresh evaluation. Exact rational arithmetic for the output transform."
 ],
 "C29": [
  "proved",
  "False as written: the kernel object built by the first Invoke is never rebuilt (refuted by a stale shape and by a moved input buffer). Proved when every earlier Invoke saw the current shape and input address."
 ],
 "C38": [
  "proved",
  "Proved for accepted nodes whose input has the announced depth, with every kernel, up to the mathematical result. Parts false as written are refuted: input depth is not checked, filter depth 0 divides by zero in Prepare, bitpacked SAME-zero node without multiplier is accepted by the reference kernel."
 ],
 "C43": [
  "proved",
  "Static channel counts (dynamic sizes excluded)."
 ],
 "C47": [
  "proved",
  "Combines C28/C29/C38 with the per-kernel theorems; exact rational arithmetic."
 ],
 "C03": [
  "proved",
  "NEON instruction semantics modelled per instruction (ld2, uzp1/2, sri, sqsub, dup, st1); little-endian. The transcription of the inline assembly is compared mechanically by tools/asm_a64.py."
 ],
 "C04": [
  "proved",
  "False as written: refuted for -0.0 and for NaN with the sign bit set; proved for all inputs without such values (and that the NEON words are the sign bits in every case)."
 ],
 "C27": [
  "proved",
  "False as written in two corners, both refuted: the verifier accepts a TANH/SIGN_BIT activation whose options cannot be written, and BMaxPool2D with a missing padding key is silently SAME. The round trip for every other accepted attribute set, and the exact condition under which Init of BConv2D succeeds, are proved. Flexbuffers is modelled as a finite map from keys to ints."
 ],
 "C40": [
  "proved",
  "All flag combinations, any previous resolver content."
 ],
 "C41": [
  "proved",
  ""
 ],
 "C42": [
  "proved",
  "False as written: refuted for zero samples (IndexError) and for list inputs with unequal numbers of rows (truncated, not rejected). Proved for one or more samples and equal rows, with any stateful model; wrong type, shape or number of inputs is always rejected."
 ],
 "C36": [
  "proved",
  "False as written for models with more than one SignatureDef or subgraph: refuted (only the first signature is renumbered, and it is renumbered for every subgraph). Proved for everything else, with the evaluation meaning of modify_integer_quantized_model_io_type and strip_lcedequantize_ops."
 ],
 "C37": [
  "proved",
  "False as written: refuted (second consumer of a removed tensor; dangling index in the fast path; an input quantised twice). Proved when the removed tensors have no other use."
 ],
 "C48": [
  "proved",
  "Instruction-level model of the 4x4 kernel (float and int8); the int8 conversion is the fcvtns instruction on both sides."
 ],
 "C49": [
  "proved",
  ""
 ],
 "C50": [
  "proved",
  "False as written: refuted at depth 12 (over-accumulates); proved for depth 4 and for multiples of 8 from 16 on."
 ],
 "C51": [
  "proved",
  "Instruction-level model of the 8x4 kernel (float, int8)."
 ],
 "C52": [
  "proved",
  ""
 ],
 "C53": [
  "proved",
  "The thresholds array must cover the row count rounded up to 8 (see C55)."
 ],
 "C54": [
  "proved",
  "The 4x4 theorems: without MAX_STREAMING for all depths, with it for the depths at which C50 holds; per-channel arrays long enough (see C55)."
 ],
 "C55": [
  "proved",
  "False as written: refuted for the 8x4 kernel when out_c mod 8 is 1, 2 or 3 (multipliers, biases) or not 0 (thresholds); proved in all other cases."
 ],
 "C56": [
  "proved",
  "False as written: refuted when an accumulator exceeds 65535 (filter with more taps than the input has pixels, see C22): the result is taken modulo 2^16, proved for all cases. Equality proved when the filter has no more taps than the input has pixels, always with VALID padding, and whenever the accumulators fit. Per-channel arrays and over-read memory as in C57. The SAME-zero correction that follows is C20."
 ],
 "C57": [
  "proved",
  "False as written: refuted (a) when the last block has 1, 2 or 3 channels (multiplier and bias arrays), (b) for grouped convolutions (input tensor, one depth block past the end); proved in all other cases."
 ],
 "C58": [
  "proved",
  ""
 ],
 "C59": [
  "proved",
  ""
 ],
 "C60": [
  "proved",
  "False as written: refuted for a float result of -0.5009765625 (0 is stored; -1 is nearest). Proved: nearest exactly when the result is not negative with a fraction in (1/2, 1/2 + 1/256) above -128; always within 1/2 + 1/256."
 ],
 "C61": [
  "proved",
  "The second half is false as written: on a tie (0.5) the assembly rounds to even, the portable kernel away from zero (the source allows any tie handling). Proved: always nearest, and equal to the portable result when not a tie."
 ],
 "C62": [
  "proved",
  "For the reference kernel with IEEE binary64 setup and binary32 transform (SpecFloat); the optimised kernels write the same values (C13, C19, C51-C57) except for the float zero-padding correction. Uses the standard library's real number axioms through Flocq."
 ],
 "C63": [
  "proved",
  "As C62; the C++ conversion of an out-of-range rounded float to int32 is undefined, the theorem says when that cannot happen. Uses the standard library's real number axioms through Flocq."
 ],
 "C64": [
  "proved",
  "False as written: refuted by C64_refuted_per_pixel_bias and C64_refuted_multiplier_shape (the patterns do not check shapes before fusing). Proved for programs whose initial operations satisfy tame: constants combined with computed tensors are scalars or vectors that do not enlarge them, binary filters hold +1/-1, max pooling before quantise has no activation or RELU_N1_TO_1 (the other activations are C25's finding). Exact arithmetic; the float rounding of folded constants is C12/C62."
 ],
 "C65": [
  "proved",
  "For the patterns exactly as they are, no condition on the program but SSA form."
 ],
 "C66": [
  "proved",
  "False as written: refuted four times (Sign(Sign(x)+2); tf.Select with a vector condition; a nearly binary filter; stride 2 with symmetric padding). Proved for programs satisfying `sane`: in those four situations the constants, shapes, filters and paddings are the expected ones. Numbers are exact; static shapes are those of the run; ConvertTFDilatedConvOp (TensorFlow's) and the merging of equal constants are not modelled."
 ],
 "C67": [
  "proved",
  "ConvertTFDilatedConvOp, which the pass runs among its own patterns, and the merging of equal constants are TensorFlow's and MLIR's and not modelled here; C78, C81 and C82 allow them between any two of the pass's own steps."
 ],
 "C68": [
  "proved",
  "For graphs that meet the conditions of C66 (sane) and of C64 (calm, asked of the original graph) and whose convolutions fit the kernel's limits (fits_machine: positive sizes, accumulators below 2^31, zero padding accepted by the kernel; the weights have been folded to constants). TFLite's builtins are assumed to do what the operator says; float arithmetic is exact."
 ],
 "C69": [
  "proved",
  "False as written: refuted (C69_stride2_refuted: a 3x3 convolution with stride 2 on an image padded by one on each side); proved when the padding that is fused splits as SAME padding does (fuse_sane), which always holds with stride 1 (C69_stride_one). In C69_whole_chain what TensorFlow's own passes do between preparation and optimisation is a hypothesis."
 ],
 "C70": [
  "proved",
  "groups = 1, VALID or one-padded SAME; per-channel arrays long enough (C55). Depth below 2^22 words."
 ],
 "C71": [
  "proved",
  "binary32 setup, output transform, correction cache and correction with Flocq-verified rounding; optimised and reference kernels within 3*2^-21 of the magnitude; bit and sign equality refuted (C71_same_sign_refuted). FMA contraction is not modelled."
 ],
 "C72": [
  "proved",
  "Builtin TFLite operators are a parameter (assumed to do what IR.v says); flexbuffers is modelled as a map; the float constant of a packed filter stays in the modelled file."
 ],
 "C73": [
  "proved",
  "False as written: refuted where a parameter pair really rounds and the claim is read without leaving pairs out (C73_parameters_refuted), and where a parameter is a quantised LceDequantize (C73_order_refuted: the result depends on the order); proved when no parameter is a quantised convolution result or LceDequantize and no quantised convolution output is a tie moved across zero by the zero point (C46). int8, one scale per tensor, exact arithmetic; requantisation of int8 tensors is not modelled."
 ],
 "C74": [
  "proved",
  "Under C73's conditions (no parameter matching two patterns, no exact ties crossing zero), builtins assumed to do what IR.v says, filters constant, sizes in the ranges the kernels need; the optimised kernels reject zero padding with int8 output."
 ],
 "C75": [
  "proved",
  "False as written: refuted for a Keras model the pipeline does not quantise (the error about the impossible int8 request is swallowed and a float32 model returned) and for a model only some of whose inputs are quantised (the others stay float32 silently). Proved: rejection, the pipeline's arguments, the choice of path and shapes for all models and backends; int8 wherever the pipeline quantised the input or output, on models the retyping can work on (C36's conditions)."
 ],
 "C76": [
  "proved",
  "False as written: refuted when a Dequantize reads float16 (or per-axis) data: float16 scores make the cast abort, float16 boxes are handed to the operator as they are. Proved for all graphs when every Dequantize reads per-tensor int8 data; results, types, termination and effects for all graphs. The agreement of the integer kernel with the float kernel is a hypothesis (neither is in this repository)."
 ],
 "C77": [
  "proved",
  "Under C73's and C74's conditions; the tensor table is part of the file (schema: Tensor.quantization), written by TensorFlow's exporter, which is assumed to store each value's type with its tensor."
 ],
 "C78": [
  "proved",
  "Each LCE pass is asked to find the conditions of its own claim (C64, C66, C69, C73) in the program it is given. The detection pass works on operators with several results, which are modelled separately (C76). TensorFlow's pattern for dilated convolutions and the merging of equal constants may happen between any two steps of a pattern pass (`interleaved`)."
 ],
 "C79": [
  "proved",
  "Bit-identity is false as a user might expect it: refuted by C79_bit_identical_refuted; the accuracy claim is proved for every choice. The fused operation is proved equal to Flocq's on all data."
 ],
 "C80": [
  "proved",
  "False as written for the last sentence: refuted by C80_common_zero_point_refuted (zero points of several channels are reported only if all are 0); the rest proved. String inputs are left out (their size is not fixed)."
 ],
 "C81": [
  "proved",
  "False as written in one case: refuted by C81_silent_failure_refuted (a pass before variable freezing that fails without an error message gives status OK and empty bytes); C81_success lists that case exactly, and C81_bytes proves the claim when those passes say why they fail. The verifier, the translation and TensorFlow's status handler are by contract."
 ],
 "C82": [
  "proved",
  "Composition of C78, C77 and C80. The interpreter's Invoke (TensorFlow Lite) enters by its contract: started with the inputs' buffers it leaves in the outputs what some execution of the file's operators leaves there, and keeps types and dimensions. How tensors store values (endianness, rounding) is a parameter. The case runs a converted quantiser on bytes: predict([-1.0, 3.0]) is the packed word 1."
 ],
 "C83": [
  "proved",
  "A composition of C10, C14, C19 and C54 (one- or VALID-padding; no groups for the matrix product); C83_invoke_aarch64 puts it after C47's histories (C38, C54). Float outputs: C84, and C79 when the compiler fuses operations."
 ],
 "C84": [
  "proved",
  "No groups. With zero padding C84_zero_padding, _4x4, _arm32: the assembly followed by the C++ correction gives what the indirect kernel gives (C71 has the bound); the history theorem is for one or VALID padding. The arithmetic of the kernels is binary32, round to nearest even, with subnormals (32-bit Arm's NEON flushes them to zero: not modelled) and one NaN pattern. The reference kernel and the setup are compiled without fused operations (C79 has the bound with them). The float value of C84_int8_8x4 and C84_int8_4x4 is what the output transform computes before its conversion to int8. Int8 on 32-bit Arm: C70; accuracy of int8: C61."
 ]
}