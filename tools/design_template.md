# Formal model of larq/compute-engine in Rocq (Coq 8.16.1)

This file is generated by `tools/design.py` from `tools/design_template.md`,
`properties.jsonl` and `MANIFEST.json`.

## Method

* Memory is explicit: an array is a `list`, a read or write outside it makes the
  whole computation `None`. C++ loops become `for_` (a fold over an interval in
  the option monad). A theorem `exists out, f .. = Some out /\ ...` is therefore
  total correctness: no out-of-bounds access, plus the value.
* `theories/Spec.v` is the independent specification (+1/-1 values, integer
  convolution, max pooling, SAME/VALID geometry). It uses no helper of the model.
* Float data are treated in one of three ways, said in each theorem:
  (a) parametrically: the float operations are arguments, so two kernels applying
  the same operations give bitwise the same result for any interpretation;
  (b) exactly, in the rationals Q; (c) bit-exactly as IEEE binary32/64 with the
  standard library's `SpecFloat`.
* Words (`TBitpacked`, int32) are represented by their unsigned 32-bit value.
* Threads: a task that only reads read-only memory is described by the list of
  its stores; `Log.concurrently` is the set of all interleavings of such lists.
* Inline assembly: an instruction-level machine (`A64.v`: 32 vector registers as
  byte lists, general registers holding ints or region pointers, flags, a store
  log, a 256-byte scratch buffer) with an out-of-bounds access being a fault.
  The programs are transcribed instruction by instruction (`A64Bgemm.v`,
  `A64Ind.v`, `BitpackA64.v`, `A32.v` for 32-bit Arm); `tools/asm_bgemm.py`, `tools/asm_ind.py`,
  `tools/asm_arm32.py` and `tools/asm_a64.py` extract the
  instructions from the C++ source and compare them with the Coq text.
* Property theorems live in `Prop_*.v`, named `Cnn_...`, each followed by
  `Print Assumptions` and by `Example`s showing its hypotheses are met by a
  concrete case. A claim that the unchanged code violates has a theorem
  `Cnn_..._refuted` (a witness), next to a positive theorem with the exact
  condition under which it does hold. In `MANIFEST.json` such a claim has status
  `proved` and a note that begins "False as written" or says so.

## Properties, models, proofs

| id | property | model | proof method | theorems |
|----|----------|-------|--------------|----------|
@@TABLE@@

## Trusted base

* Coq 8.16.1's kernel (and, for `vm_compute` in witnesses, its bytecode machine;
  `coqchk` re-checks these without it).
* `Print Assumptions` answers "Closed under the global context" for every
  `Cnn_...` theorem except `C12_float_thresholds_with_margin`,
  `C12_float_output_sign_with_margin`, `C62_float_output_accuracy`,
  `C63_int8_output_accuracy`, the three `C71_...` theorems and the `C79_...` theorems
  other than `C79_unfused` and `C79_bit_identical_refuted`, and
  `C45_quantize_of_int8_double`, `C45_quantize_of_int8_single`,
  `C46_quantize_of_bconv_float32`, and the `C84_...` theorems, whose proofs go through Flocq and the
  standard library's real numbers; for these it lists exactly the standard
  library's `ClassicalDedekindReals.sig_not_dec`, `ClassicalDedekindReals.sig_forall_dec`,
  `FunctionalExtensionality.functional_extensionality_dep` and `Classical_Prop.classic`.
  (Flocq contributes lemmas, no axioms.) No axiom of ours is used anywhere. (A
  list of axioms for the whole library context mentions the module parameters of
  `ssreflect`'s `Under_rel`, which are signature fields of Coq's own `ssrunder`
  that no theorem here depends on.)
* Faithfulness of the model to the text in /repo: each definition cites its file
  and lines. It is a hand transcription, except that the assembly listings are
  compared mechanically as said above.
* C++ semantics assumed: two's complement, little-endian memory, 32-bit `int`,
  no overflow of `int` index arithmetic (sizes are unbounded integers) unless a
  property is about overflow (C05, C22, C23, 8x4 accumulators), arrays that do
  not alias unless said.
* Meaning of the NEON/AArch64 instructions as written in `A64.v` and
  `BitpackA64.v` (from the Arm architecture manual). Float instructions
  (`ucvtf/scvtf`, `fmul`, `fadd`, `fcvtns`) are arguments of the kernel theorems
  (`nops`), with only their result range assumed; C60, C61 and C84 use an IEEE
  binary32 instance (`IeeeOps.v`).
* External software, by contract only: ruy (which blocks are executed when, and
  that blocks are non-empty and aligned; its packed layout is modelled), TFLite's
  interpreter, padding helpers, im2col and float MaxPool, flexbuffers,
  flatbuffers, numpy, MLIR's pattern driver.

## What is modelled, file by file

| file in /repo/larq_compute_engine | status |
|---|---|
| core/types.h | modelled (xor_popcount, saturate, CeilDiv) |
| core/bitpacking/bitpack.h, utils.h | modelled: portable path completely, `__aarch64__` dispatch |
| core/bitpacking/bitpack_aarch64.h | modelled instruction by instruction |
| core/bconv2d/reference.h, output_transform.h, params.h | modelled |
| core/bconv2d/zero_padding_correction.h | modelled (rational arithmetic; in IEEE arithmetic in FloatZeroPad.v) |
| core/bconv2d/optimized_bgemm.h | modelled; im2col helpers by contract |
| core/bconv2d/optimized_indirect_bgemm.h | modelled |
| core/indirect_bgemm/kernel.h, kernel_4x2_portable.h, select_kernel.h | modelled |
| core/indirect_bgemm/kernel_8x4x{1,2,4}_aarch64.h | @@INDIRECT_ASM@@ |
| core/bgemm/bgemm.h, ruy_pack.h, ruy_trmul_params.h, kernels.h, kernels_common.h | modelled; ruy's scheduling is any legal schedule and interleaving; the packing assembly of ruy itself is by contract |
| core/bgemm/kernels_aarch64.h | @@BGEMM_ASM@@ |
| core/bgemm/kernels_arm32.h | modelled instruction by instruction (A32.v); not modelled: wrap-around of 32-bit addresses, alignment, flush-to-zero of subnormals by the 32-bit NEON unit |
| core/bmaxpool.h | modelled |
| tflite/kernels/bconv2d.cc | modelled (Init, Prepare, OneTimeSetup, Eval, registration variants) |
| tflite/kernels/bmaxpool.cc, quantization.cc, utils.h, lce_ops_register.h | modelled |
| tflite/python/interpreter_base.py, interpreter.py, interpreter_wrapper_utils.h | predict, list/array handling; accessors and SetTensorFromNumpy (Accessors.v, C80); the pybind plumbing is not |
| tflite/benchmark, tflite/java | the flags and the registration (Misc.v, C40); measuring and logging are not |
| mlir/ir/lce_ops.cc, lce_ops.td | options, folding, verifiers modelled; rest is generated MLIR |
| mlir/transforms: bitpack.cc, bitpack_weights*, bitpack_activations_patterns.td, optimize.cc, optimize_patterns_*.td, prepare_patterns_*.td, prepare_tf.cc, quantize_patterns.td, fuse_padding.*, padding.h, set_batch_size.cc | the rewrites are modelled as functions on the tensors they read; for the optimize, op-removal, prepare and padding-fusion passes (op_removal_patterns.td included) the graph rewriting itself is modelled too (IR.v, IRPass.v, IRFuse.v), as any sequence of actions; the execution of the result in memory is modelled in IRRun.v; MLIR's driver code and its choice of order are not |
| mlir/transforms: legalize_tflite.cc, translate_tflite.cc, passes.h, detection_postprocess.cc | @@PASSES@@ |
| mlir/python/util.py | modelled with an evaluation semantics of subgraphs |
| mlir/python/converter.py, mlir/tf_tfl_passes.cc, tf_to_tfl_flatbuffer.cc, pybind files | @@CONVERTER@@ |

## Findings (disagreements between the code and the properties)

Each is a theorem `..._refuted`, unless marked "read only" (seen while modelling,
not formalised).

1. C04: the AArch64 float packing records the IEEE sign bit, the portable one `x < 0`: -0.0 and negative NaN differ.
2. C05: `(1 << 31) - 1`-style shift of a signed 1 when 31 columns remain and the zero point is above every value: undefined behaviour.
3. C12: converter thresholds are computed in float with a rounding that can disagree with the runtime's float output. They are proved to agree outside a relative margin of 2^-19.
4. C15, F31: kernels read thresholds past the end (portable 4x2: up to 3; 8x4 assembly: up to 7; multiplier/bias arrays are padded by 4 but 8 are read).
5. C21: zero-padding correction is wrong when the filter is larger than the input.
6. C22: the indirect kernels with uint16 accumulators are selected by a bound on the input size, not on the filter: overflow possible.
7. C25: RELU / RELU6 max pooling is rewritten although the activation changes signs.
8. C26: explicit padding is fused for strides where SAME splits the padding differently.
9. C27: TANH/SIGN_BIT activations pass the verifier but cannot be written; BMaxPool2D without a padding key is silently SAME.
10. C29: the indirect kernel object built at the first Invoke is kept after the input is resized or moved.
11. C30/C31/C46: int8 zero point -128 or scale above 2 loses the bit; converter folds in double, runtime in float; ties.
12. C33: `Sign(Sign(x)+c)` is rewritten for any constant c.
13. C34: filters are recognised as binary within a tolerance of 0.005.
14. C36/C37: util.py renumbers only the first signature/for every subgraph; removes tensors still used elsewhere.
15. C38: Prepare does not check the input depth; divides by zero for a zero filter depth; accepts a bitpacked SAME-zero node without multiplier.
16. C42: predict with zero samples raises IndexError; lists of unequal lengths are truncated.
17. C50: the RUY_OPT(MAX_STREAMING) branch of the 4x4 kernel over-accumulates at most depths.
18. C55: the 8x4 kernel reads multiplier, bias and threshold in groups of 8; OneTimeSetup pads multiplier and bias by 4 and the thresholds not at all, so it reads past their end for most channel counts not a multiple of 8.
19. C56: the indirect assembly kernels return the result modulo 2^16 in the case of finding 6.
20. C57: the indirect assembly kernels read multiplier and bias past their end when the last group has 1, 2 or 3 channels modulo 8, and, for grouped convolutions, load activations for the group after the last: up to 4 words behind the input tensor.
21. Read only: the 8x4 indirect assembly kernels modify registers declared as inputs only; `%x[row]` reads the upper half of a 32-bit operand.
22. C60: the 32-bit Arm kernel truncates to 8 fractional bits before rounding, so negative float results less than 1/256 beyond a half-integer are rounded to the farther integer.
23. C61: int8 results on exact ties differ between the assembly (to even) and the portable kernel (away from zero); the source documents this as allowed.
24. C64: shapes are not checked before fusing (a TODO in the source). A constant with one value per pixel added to a convolution followed by a quantise becomes a rank-4 bias, of which the thresholds use the first values only; a multiplier of shape [1,1,1,C] followed by a quantise contributes only the sign of its first channel. Both pass Prepare and give wrong bits silently. Without the quantise, Prepare rejects the model.
25. C66: a tf.Select (v1) whose condition is a vector chooses along the outermost dimension; the quantiser pattern broadcasts the condition along the innermost one. On a tensor whose outermost and innermost sizes agree the result is silently wrong; otherwise conversion fails.
26. C71: with SAME-zero padding the optimised kernels round twice more than the reference kernel (the product and the addition of the correction). For multiplier 0.1f and bias 0.2f an output that is +0 in the reference kernel is about -7e-8 in the optimised one, so LceQuantize of the output gives opposite bits in the two kernels. The accuracy bound still holds.
27. C73: the quantise pass uses the multiplier and bias below a quantise/dequantise pair as they are, so a network whose parameters really were rounded computes something else after the pass (intended, it seems, but nothing checks that the pair is only an annotation). If a parameter is a quantised LceDequantize, two patterns match the same operation and the result depends on which the driver tries first.
28. C75: convert_keras_model asked for int8 inputs and outputs on a model the pipeline does not quantise returns a float32 model without an error: convert_saved_model does raise, but `except Exception` (converter.py:227) swallows it and the fallback skips the retyping (line 271). If the pipeline quantised only some inputs, both converters leave the others float32 without saying so.
29. C76: the detection pass only checks that the three operands come from Dequantize operators. One that widens float16 (or per-axis) scores makes `cast<quant::UniformQuantizedType>` (detection_postprocess.cc:122-125) abort the converter; float16 boxes or anchors are handed to the integer operator.
30. C79: the float path leaves contraction to the compiler: the same model gives different float outputs on a build that fuses the output transform (AArch64 compilers by default) than on one that does not; both meet the error bound.
31. C80: `get_zero_points` compares each channel's zero point with the tensor's legacy field, which TFLite sets to 0 for per-channel tensors; channels with a common nonzero zero point raise although the comment asks only that they agree.
32. C81: when a pass before variable freezing fails without an error diagnostic, `ConsumeStatus` gives OK and the converter returns an empty byte string as a success (the later failures are combined with an error of their own).
33. C46: even away from exact ties the fused int8 operator and quantising the float output differ: 0.49999997 with scale 1 and zero point 100 gives 101 against 100, because the zero point is folded into the float bias.
@@FINDINGS@@
## Checking the theorems against wrong programs

`seeded/LOG.jsonl` records edits of the model in a scratch copy, the claim each
breaks, and the theorems that failed (or were tightened because they did not).
