-Q theories Verif

theories/Base.v
theories/Spec.v
theories/Bits.v
theories/Check.v
theories/Loop4.v
theories/Bitpack.v
theories/Float32.v
theories/Reference.v
theories/OutputTransform.v
theories/Quantize.v
theories/RefTheorems.v
theories/Padding.v
theories/MaxPool.v
theories/Indirect.v
theories/IndirectPack.v
theories/IndirectBuf.v
theories/IndirectRun.v
theories/IndirectTop.v
theories/Log.v
theories/Bgemm.v
theories/BgemmProofs.v
theories/BgemmConv.v
theories/Select.v
theories/ZeroPad.v
theories/Threshold.v
theories/ThresholdFloat.v
theories/FlocqBridge.v
theories/ThresholdMargin.v
theories/ThresholdConv.v
theories/FloatSetup.v
theories/FloatAccuracy.v
theories/FloatConv.v
theories/FloatOrder.v
theories/ConvSign.v
theories/ConvPool.v
theories/FusePad.v
theories/ConvFold.v
theories/ConvBinary.v
theories/Prepare.v
theories/Lifecycle.v
theories/EndToEnd.v
theories/BitpackA64.v
theories/Options.v
theories/Misc.v
theories/GraphUtil.v
theories/GraphProofs.v
theories/GraphTop.v
theories/A64.v
theories/A64Bgemm.v
theories/A64Lemmas.v
theories/A64K44.v
theories/A64Store.v
theories/A64Trans.v
theories/A64Seg.v
theories/A64Block44.v
theories/A64Write44.v
theories/A64Main44.v
theories/A64Loop44.v
theories/A64Kernel44.v
theories/A64Stream44.v
theories/A64Rel.v
theories/A64Acc84.v
theories/A64Block84.v
theories/A64Write84.v
theories/A64Loop84.v
theories/A64Kernel84.v
theories/A64Val84.v
theories/A64Bits84.v
theories/A64BitsW84.v
theories/A64RelBits.v
theories/A64Conv.v
theories/A32.v
theories/A32Acc.v
theories/A32Store.v
theories/A32Block.v
theories/A32Main.v
theories/A32Kernel.v
theories/IeeeOps.v
theories/IR.v
theories/IRProofs.v
theories/IRRules.v
theories/IRSound.v
theories/IRTerm.v
theories/IRWell.v
theories/IRTf.v
theories/IRPrep.v
theories/IRPass.v
theories/IRPassRule.v
theories/IRPassProof.v
theories/Prop_Quantize.v
theories/Prop_Reference.v
theories/Prop_MaxPool.v
theories/Prop_Indirect.v
theories/Prop_Bgemm.v
theories/Prop_ZeroPad.v
theories/Prop_Threshold.v
theories/Prop_ThresholdFloat.v
theories/FloatZeroPad.v
theories/Prop_FloatAccuracy.v
theories/Prop_ConvSign.v
theories/Prop_ConvPool.v
theories/Prop_FusePad.v
theories/Prop_ConvFold.v
theories/Prop_ConvBinary.v
theories/Prop_Lifecycle.v
theories/Prop_Prepare.v
theories/Prop_EndToEnd.v
theories/Prop_BitpackA64.v
theories/Prop_Options.v
theories/Prop_Misc.v
theories/Prop_Graph.v
theories/Prop_A64.v
theories/Prop_A64b.v
theories/A64Ind.v
theories/A64IndBlk.v
theories/A64IndLoop.v
theories/A64IndAcc.v
theories/A64IndTrans.v
theories/A64IndOut.v
theories/A64IndVal.v
theories/A64IndStore.v
theories/A64IndRun.v
theories/A64IndTop.v
theories/A64IndEval.v
theories/Prop_A64Ind.v
theories/Prop_A32.v
theories/Prop_IR.v
theories/Prop_Prep.v
theories/IRPassTame.v
theories/IRRun.v
theories/IRRunProof.v
theories/IRRunConv.v
theories/IRRunTop.v
theories/Prop_Run.v
theories/IRFile.v
theories/IRInt8.v
theories/Prop_File.v
theories/Prop_Int8.v
theories/IRRun8.v
theories/Prop_Run8.v
theories/Converter.v
theories/Prop_Converter.v
theories/IRFuse.v
theories/Prop_Fuse.v
theories/Prop_Arm32Conv.v
theories/Prop_FloatOpt.v
theories/Detect.v
theories/Prop_Detect.v
theories/IRFile8.v
theories/Prop_File8.v
theories/Pipeline.v
theories/Prop_Pipeline.v
theories/Flow.v
theories/Prop_Flow.v
theories/FloatFma.v
theories/FloatFmaOpt.v
theories/Prop_FloatFma.v
theories/FloatDequant.v
theories/FloatFuse.v
theories/Prop_FloatDequant.v
theories/Accessors.v
theories/Prop_Accessors.v
theories/Prop_Predict.v
theories/Prop_Builds.v
theories/AsmFloat.v
theories/AsmInt8.v
theories/Prop_BuildsFloat.v
theories/Prop_BuildsInt8.v
