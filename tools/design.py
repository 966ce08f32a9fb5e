import json,re
ps=[json.loads(l) for l in open('/verif/properties.jsonl')]
m={c['property']:c for c in json.load(open('/verif/MANIFEST.json'))['claims']}
how={
'C01':('Bitpack.v, Float32.v, Quantize.v','loop invariants over rows/words; one-word bit lemma'),
'C02':('Bitpack.v, Quantize.v','composition of pack and unpack invariants'),
'C03':('BitpackA64.v (instruction by instruction)','lane lemmas, loop invariant of the software pipeline'),
'C04':('BitpackA64.v','as C03; refuted on -0.0 and negative NaN'),
'C05':('Bitpack.v with `1<<31` undefined','case analysis; witness'),
'C06':('Reference.v','loop invariants, refinement to Spec.conv'),
'C07':('Reference.v','as C06, zero padding'),
'C08':('Reference.v, OutputTransform.v','refinement + algebra on Q'),
'C09':('Reference.v, OutputTransform.v','refinement + rounding lemma'),
'C10':('Reference.v, OutputTransform.v','refinement, bit lemma'),
'C11':('Threshold.v','rational arithmetic, case analysis on multiplier sign and activation'),
'C62':('FloatSetup.v (binary64 setup, binary32 transform), FloatAccuracy.v, FloatConv.v','forward error analysis in the reals with Flocq, transferred to the rationals'),
'C64':('IR.v, IRProofs.v, IRRules.v, IRSound.v, IRWell.v','programs as lists of SSA instructions over shaped tensors; each pattern is proved once with broadcasting; a step is sound for every value still present; the conditions on the initial program are an invariant of the steps'),
'C65':('IRTerm.v','a weight for each operation that every action decreases'),
'C66':('IRTf.v, IRPrep.v, IRPass.v, IRPassRule.v, IRPassProof.v','TensorFlow operators as functions on shaped tensors; each pattern is proved once; a step keeps SSA form, the results and the conditions on the program'),
'C67':('IRPassProof.v','a weight for each operation that every action decreases'),
'C68':('IRPassTame.v, IRRun.v, IRRunProof.v, IRRunConv.v, IRRunTop.v','must-semantics of a program in memory: buffers represent values; each LCE kernel is replaced by its model from C01-C10, C28, C47; a simulation between values and buffers, composed with C66 and C64 (IRPassTame: the conditions of C64 survive the prepare pass)'),
'C69':('IRFuse.v','the patterns as rewriting rules on the programs of C64-C67, one action at a time; each keeps the output values and the condition; a decreasing weight; composed with C66, C64 and C68'),
'C71':('ZeroPad.v (CacheG, ApplyG), FloatZeroPad.v, Prop_FloatOpt.v','the correction code over any number type; in binary32 the tap sums are shown exact, then one product and one sum are rounded (Flocq error bounds) on top of C62 for the accumulator with ones outside'),
'C72':('IRFile.v, Prop_File.v','packing, legalisation, translation and registration as functions on whole programs; the file is executed with codes resolved by name and options parsed by Init; per-operator simulation against C68, induction over the program with SSA giving the filter constants'),
'C74':('IRRun8.v, Prop_Run8.v, IRRun*.v','the buffer machine of C68 with the three int8 operators run by their kernels (Quantize.v, Prepare.v, Lifecycle.v, EndToEnd.v); each operator: buffers hold values before implies buffers hold values after, for every execution; induction over the program; composed with C73'),
'C84':('AsmFloat.v, Prop_BuildsFloat.v, AsmInt8.v, Prop_BuildsInt8.v','decoding undoes encoding on canonical binary32 data and Flocq shows every result canonical, so the transform on bit patterns is the image of the one on numbers; then C54 and C70, and C62 for the distance to the exact result'),
'C83':('Prop_Builds.v','each kernel is proved to write the words of the reference kernel (C10, C14, C19, C54); packed words are determined by their bits, and those by the convolution and the thresholds'),
 'C82':('Prop_Predict.v (no new model)','C78 for the program and its file, C80 for the checks and copies of predict, joined by the contract of Invoke'),
    'C81':('Flow.v, Prop_Flow.v','the control flow of ConvertTFExecutorToTFLOrFlatbuffer on the pass lists of Pipeline.v, every pass an arbitrary function giving success, module and error messages; C78 applied to the passes that succeeded'),
'C80':('Accessors.v, Prop_Accessors.v','the accessors and predict as functions on a state of tensors, exceptions as None with the state left behind; TFLite\'s loader of quantisation parameters by contract'),
'C79':('FloatFma.v, FloatFmaOpt.v, Prop_FloatFma.v','a fused multiply-add on SpecFloat data proved equal to Flocq\'s; a boolean per channel and per value chooses it; the error analysis of C62, C63, C71 repeated for both values of each boolean'),
'C78':('Pipeline.v, Prop_Pipeline.v','the pipeline as a list of passes computed from the options; foreign passes are relations, own passes the rewriting relations of the earlier claims; induction over the run composes the changes; order facts by computation over all options'),
'C77':('IRFile8.v, Prop_File8.v','scales and zero points move from the operators to a table of the file\'s tensors; every operator, erased, is written by C72\'s functions and re-typed when read; run of the file simulated operator by operator with C72 and C74'),
'C76':('Detect.v, Prop_Detect.v','programs with multi-result operators and explicit types; the pattern as a function (no match, abort, replace), the driver as any sequence of matches and erasures; simulation except at the fresh value, a weight for termination, type invariants'),
'C75':('Converter.v, Prop_Converter.v, GraphUtil.v','the front end as a run (effects, outcome) over abstract importers and pipeline, exceptions as outcomes; success characterised by an equivalence; types through the structure lemmas of C36'),
'C73':('IRInt8.v, Prop_Int8.v','quantised operators as functions on tensors; the pass as rewriting of SSA programs; the specification strips parameter pairs; each action simulates zero or one value-preserving replacement of the stripped program; a program no pattern matches is its own stripped form; termination by a weight using the positions of definitions'),
'C70':('A64Conv.v (conv_k), A32*.v, Prop_Arm32Conv.v','the convolution over any kernel meeting its contract (C58); int8 against the float reference element by element with the rounding lemmas of C60, C61'),
'C63':('FloatSetup.v, FloatAccuracy.v, FloatConv.v','as C62, then nearest-integer reasoning'),
'C12':('ThresholdFloat.v (IEEE binary32 via SpecFloat); FlocqBridge.v, ThresholdMargin.v, ThresholdConv.v (error analysis)','witness by computation; forward error analysis in the reals with Flocq, transferred back to the rationals'),
'C13':('Indirect.v, IndirectPack/Buf/Run/Top.v','pointer and loop invariants, refinement to Reference'),
'C14':('as C13','as C13'),
'C15':('Indirect.v','witness: the model fails (None) when the array ends at out_c'),
'C16':('IndirectPack.v, IndirectBuf.v','index arithmetic invariants'),
'C17':('Bgemm.v, Log.v, BgemmProofs.v','frame lemma per block; any interleaving of store logs'),
'C18':('Bgemm.v, Log.v, BgemmProofs.v','as C17 with word-level footprints'),
'C19':('BgemmConv.v','im2col contract + C17/C18'),
'C20':('ZeroPad.v','cache-to-window geometry lemma, algebra'),
'C21':('ZeroPad.v','witness'),
'C22':('Select.v','popcount bounds; witness'),
'C23':('Select.v','popcount bounds on every partial sum'),
'C24':('MaxPool.v, Padding.v','loop invariants'),
'C25':('ConvPool.v, FloatOrder.v','order lemmas on binary32; witness'),
'C26':('FusePad.v, Padding.v','index arithmetic; witness'),
'C27':('Options.v','finite-map round trip; witnesses'),
'C28':('Lifecycle.v','state invariant over event lists'),
'C29':('Lifecycle.v','state invariant; witnesses'),
'C30':('Quantize.v','rational arithmetic; witnesses'),
'C31':('ConvFold.v','refinement; witness in IEEE arithmetic'),
'C32':('ConvSign.v, FloatOrder.v','sign of an IEEE difference'),
'C33':('ConvSign.v','case analysis on order; witness'),
'C34':('ConvBinary.v','rational arithmetic; witness'),
'C35':('ConvBinary.v','rational arithmetic'),
'C36':('GraphUtil.v, GraphProofs.v, GraphTop.v','evaluation semantics of subgraphs, induction on operator lists'),
'C37':('as C36','witnesses; use-def lemma'),
'C38':('Prepare.v, EndToEnd.v','inversion of Prepare, composition'),
'C39':('Padding.v','division arithmetic'),
'C40':('Misc.v','case analysis over flags, map lemmas'),
'C41':('Misc.v','induction over shapes'),
'C42':('Misc.v','induction over samples; witnesses'),
'C43':('Prepare.v','case analysis'),
'C44':('ConvFold.v, FloatDequant.v','composition; IEEE division is odd'),
'C45':('ConvFold.v, FloatDequant.v','rational arithmetic; rounding keeps the sign of a non-zero product (Flocq)'),
'C46':('ConvFold.v, FloatFuse.v','rational arithmetic; witness'),
'C47':('EndToEnd.v, Lifecycle.v','composition'),
'C48':('A64.v (ISA), A64Bgemm.v (program), A64*44.v','CPS weakest-precondition lemmas; invariant over blocks'),
'C49':('A64Rel.v','C48 + C17'),
'C50':('A64Stream44.v','as C48; witness'),
'C51':('A64Acc84.v … A64Val84.v','as C48, with 16-bit lanes'),
'C52':('A64Rel.v','C51 + C17'),
'C53':('A64Bits84.v, A64BitsW84.v, A64RelBits.v','byte footprints, any interleaving'),
'C54':('A64Conv.v','im2col contract + C52/C53 + C23 bound'),
'C55':('Prop_A64b.v','C48/C51; witness: no run completes'),
'C56':('Prop_A64Ind.v','instruction-level model of all 12 asm statements; loop invariants per variant (A64IndLoop, A64IndAcc), output transform (A64IndTrans), stores, pixel loop (A64IndRun)'),
'C57':('Prop_A64Ind.v','corollary of C56 (the model faults on any access outside an array); witnesses by evaluating the machine'),
'C58':('Prop_A32.v','instruction-level model (A32) on the machine of A64; block invariant over the depth loop, transform, copy loop, block walk (A32Acc .. A32Kernel)'),
'C59':('Prop_A32.v','C58 composed with the generic schedule theorem of A64Rel'),
'C60':('Prop_A32.v','IEEE binary32 instance of the float operations (IeeeOps); integer arithmetic on multiples of 2^-149; witness by evaluating the machine'),
'C61':('Prop_A32.v','IEEE binary32 instance (IeeeOps), uniqueness of the nearest integer off ties; witness by evaluating the machine'),
}
try:
    exec(open('/verif/tools/design_more.py').read())
except FileNotFoundError: pass
rows=[]
for p in ps:
    i=p['id']; a,b=how[i]; rows.append('| %s | %s | %s | %s | %s |'%(i,p['title'],a,b,', '.join('`%s`'%t for t in m[i]['theorems'])))
tmpl=open('/verif/tools/design_template.md').read()
for k,v in subst.items(): tmpl=tmpl.replace(k,v)
open('/verif/DESIGN.md','w').write(tmpl.replace('@@TABLE@@','\n'.join(rows)))
