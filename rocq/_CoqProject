-Q theories Verif
theories/Bytes.v
theories/ModelTypes.v
theories/ModelObject.v
theories/ModelTable.v
theories/SpecObject.v
theories/SpecTable.v
theories/ProofObject.v
theories/ProofIter.v
theories/ProofHash.v
theories/ProofAxiom.v
theories/ProofTable.v
theories/ExamplesObject.v
theories/PropertiesObject.v
theories/ModelText.v
theories/SpecText.v
theories/ProofText.v
theories/ProofLiteral.v
theories/ExamplesText.v
theories/PropertiesText.v
theories/ModelPrefixMap.v
theories/SpecPrefixMap.v
theories/ProofPrefixMap.v
theories/ProofPrefixRev.v
theories/ProofPrefixSafe.v
theories/ExamplesPrefix.v
theories/PropertiesPrefix.v
theories/ModelHeader.v
theories/SpecHeader.v
theories/ProofHeader.v
theories/PropertiesHeader.v
theories/ModelOntology.v
theories/SpecOntology.v
theories/ProofOntology.v
theories/ProofOntologyQuery.v
theories/ProofOntologyEdit.v
theories/ProofOntologyHistory.v
theories/ProofOntologyTop.v
theories/ExamplesOntology.v
theories/PropertiesOntology.v
theories/ModelChange.v
theories/SpecChange.v
theories/ProofChange.v
theories/ExamplesChange.v
theories/PropertiesChange.v
theories/ModelHeap.v
theories/SpecHeap.v
theories/ProofHeap.v
theories/ProofHeapRun.v
theories/ProofHeapFun.v
theories/ProofHeapName.v
theories/ProofHeapComp.v
theories/ProofHeapSeen.v
theories/ProofHeapOnto.v
theories/ProofHeapTop.v
theories/ProofHeapLib.v
theories/ProofHeapEnd.v
theories/ProofHeapSame.v
theories/ProofHeapBad.v
theories/ExamplesHeap.v
theories/ProofHeapWrong.v
theories/PropertiesHeap.v
theories/ModelGet.v
theories/SpecGet.v
theories/ProofHeapGet.v
theories/SpecIsolate.v
theories/ProofIsolate.v
theories/ProofIsolateTop.v
theories/ExamplesIsolate.v
theories/PropertiesIsolate.v
theories/ModelReadRules.v
theories/ModelReadOwn.v
theories/SpecRead.v
theories/ProofReadCalls.v
theories/ProofReadMake.v
theories/ProofReadLogic.v
theories/ProofReadRule.v
theories/ProofReadTop.v
theories/ExamplesRead.v
theories/PropertiesRead.v
theories/ExamplesGet.v
theories/PropertiesGet.v
theories/ModelPrtValue.v
theories/ModelPrtEncoder.v
theories/ModelPrtWriter.v
theories/ModelPrtDecoder.v
theories/SpecPrt.v
theories/ProofPrtValue.v
theories/ProofPrtRead.v
theories/ProofPrtAxiom.v
theories/ProofPrtSafe.v
theories/ProofPrtCodec.v
theories/ExamplesPrt.v
theories/PropertiesPrt.v
theories/SpecPrtStream.v
theories/ProofPrtIndex.v
theories/ProofPrtFrames.v
theories/ProofPrtFlush.v
theories/ProofPrtStream.v
theories/ProofPrtTop.v
theories/ExamplesPrtStream.v
theories/PropertiesPrtStream.v
theories/SpecPrtBound.v
theories/ProofPrtBound.v
theories/ProofPrtKeep.v
theories/ExamplesPrtBound.v
theories/PropertiesPrtBound.v
theories/SpecPrtStore.v
theories/ProofPrtStore.v
theories/ExamplesPrtStore.v
theories/PropertiesPrtStore.v
theories/ModelFuncLex.v
theories/ModelFuncParser.v
theories/ModelFuncWriter.v
theories/SpecFunc.v
theories/ProofFuncRe.v
theories/ProofFuncLex.v
theories/ProofFuncWrite.v
theories/ProofFuncParse.v
theories/SpecFuncDoc.v
theories/ProofFuncDoc.v
theories/ProofFuncStore.v
theories/ProofFuncTop.v
theories/ExamplesFunc.v
theories/PropertiesFunc.v
theories/SpecFuncRead.v
theories/ProofFuncSafe.v
theories/ProofFuncRead.v
theories/ProofFuncReadTop.v
theories/ProofFuncPrefix.v
theories/ProofFuncInto.v
theories/ProofFuncLocal.v
theories/ProofFuncCutLex.v
theories/ProofFuncCut.v
theories/ExamplesFuncRead.v
theories/PropertiesFuncRead.v
theories/SpecFuncGrammar.v
theories/ProofFuncGrammar.v
theories/ProofFuncDerive.v
theories/ProofFuncDocument.v
theories/SpecFuncTokens.v
theories/ProofFuncTokens.v
theories/ExamplesFuncGrammar.v
theories/PropertiesFuncGrammar.v
theories/ExamplesFuncTokens.v
theories/PropertiesFuncTokens.v
theories/SpecFuncLayout.v
theories/ProofFuncLayout.v
theories/ExamplesFuncLayout.v
theories/PropertiesFuncLayout.v
theories/ModelIO.v
theories/SpecIO.v
theories/ProofIO.v
theories/ExamplesIO.v
theories/PropertiesIO.v
theories/SpecFuncStable.v
theories/ProofFuncStable.v
theories/ExamplesFuncStable.v
theories/PropertiesFuncStable.v
theories/SpecPrtCut.v
theories/ProofPrtCut.v
theories/ExamplesPrtCut.v
theories/PropertiesPrtCut.v
theories/ModelIds.v
theories/SpecIds.v
theories/ProofIds.v
theories/ExamplesIds.v
theories/PropertiesIds.v
theories/ModelWrite.v
theories/SpecWrite.v
theories/ProofWrite.v
theories/ExamplesWrite.v
theories/PropertiesWrite.v
theories/ModelOom.v
theories/SpecOom.v
theories/ProofOom.v
theories/ProofOomTop.v
theories/ProofOomEnough.v
theories/ExamplesOom.v
theories/PropertiesOom.v
theories/SpecConvert.v
theories/ProofConvert.v
theories/ExamplesConvert.v
theories/PropertiesConvert.v
theories/ModelPrtOwn.v
theories/SpecPrtOwn.v
theories/ProofPrtOwn.v
theories/ExamplesPrtOwn.v
theories/PropertiesPrtOwn.v
theories/ModelError.v
theories/SpecError.v
theories/ProofError.v
theories/ProofErrorText.v
theories/ExamplesError.v
theories/PropertiesError.v
theories/ModelPlugin.v
theories/SpecPlugin.v
theories/ProofPlugin.v
theories/ExamplesPlugin.v
theories/PropertiesPlugin.v
theories/ModelTypeName.v
theories/ProofTypeName.v
theories/PropertiesTypeName.v
theories/ModelPrtIndexMem.v
theories/SpecPrtIndexMem.v
theories/ProofPrtIndexMem.v
theories/PropertiesPrtIndexMem.v
