subst={
'@@INDIRECT_ASM@@':'all asm statements modelled and proved instruction by instruction, the C++ around them by hand; registers not declared as operands hold arbitrary values',
'@@BGEMM_ASM@@':'4x4 kernel (float, int8; both RUY_OPT branches) and 8x4 kernel (float, int8, bit-packed) modelled and proved instruction by instruction',
'@@PASSES@@':'legalize_tflite.cc and translate_tflite.cc modelled on whole programs (IRFile.v, C72; IRFile8.v, C77 for quantised ones); quantize.cc with quantize_patterns.td modelled as rewriting of whole programs (IRInt8.v, C73); passes.h has declarations only; detection_postprocess.cc modelled as rewriting of whole programs (Detect.v, C76)',
'@@CONVERTER@@':'converter.py, common.cc, saved_model_tfl_flatbuffer.cc, graphdef_tfl_flatbuffer.cc: Converter.v (C75), with TensorFlow importers and the pass pipeline abstract; tf_tfl_passes.cc (which passes, in which order) and tf_to_tfl_flatbuffer.cc (their sequence around variable freezing): Pipeline.v (C78), foreign passes as relations; failures, statuses, IsValidGraph and the truncation of names: Flow.v (C81); the pybind glue: not modelled',
'@@FINDINGS@@':'',
}
