-Q theories Verif
theories/Base.v
theories/BaseFacts.v
theories/Bytes.v
theories/BytesFacts.v
theories/Types.v
theories/BinModel.v
theories/TypesFacts.v
theories/FuelFacts.v
theories/BinSpec.v
theories/BinRoundTrip.v
theories/BinTotal.v
theories/BinStream.v
theories/BinSafeSpec.v
theories/BinSafe.v
theories/BinFacts.v
theories/ContFacts.v
theories/BinTerm.v
theories/BinTop.v
theories/BinMore.v
theories/BinPaths.v
theories/PropertiesBin.v
theories/ExamplesEnv.v
theories/ExamplesBin.v
theories/GenModel.v
theories/GenSem.v
theories/GenFacts.v
theories/GenSpec.v
theories/GenMarkers.v
theories/GenSelect.v
theories/GenText.v
theories/GenLink.v
theories/PropertiesGen.v
theories/ExamplesGen.v
theories/Float.v
theories/FloatFacts.v
theories/JsonModel.v
theories/JsonRel.v
theories/JsonErr.v
theories/JsonSpec.v
theories/JsonRoundTrip.v
theories/JsonTop.v
theories/JsonTerm.v
theories/JsonSafeSpec.v
theories/JsonSafe.v
theories/JsonFit.v
theories/JsonFacts.v
theories/JsonMembers.v
theories/JsonColl.v
theories/JsonScalar.v
theories/JsonGen.v
theories/JsonIssueSpec.v
theories/JsonIssues.v
theories/PropertiesJson.v
theories/ExamplesJson.v
theories/ToolModel.v
theories/ToolFacts.v
theories/DiagSpec.v
theories/DiagFacts.v
theories/ErrFormat.v
theories/PropertiesMisc.v
theories/ExamplesMisc.v
theories/JsonText.v
theories/JsonTextSpec.v
theories/JsonTextFacts.v
theories/JsonTextTop.v
theories/JsonTextEnd.v
theories/JsonNumber.v
theories/PropertiesText.v
theories/ExamplesText.v
theories/BinExc.v
theories/BinExcFacts.v
theories/BinExcSpec.v
theories/BinExcTop.v
theories/PropertiesExc.v
theories/ExamplesExc.v
theories/JsonExc.v
theories/JsonExcFacts.v
theories/JsonExcTop.v
theories/PropertiesJsonExc.v
theories/ExamplesJsonExc.v
theories/EvolveSpec.v
theories/EvolveFacts.v
theories/EvolveTop.v
theories/EvolveGen.v
theories/PropertiesEvolve.v
theories/ExamplesEvolve.v
theories/DispatchModel.v
theories/DispatchSpec.v
theories/DispatchFacts.v
theories/DispatchExact.v
theories/PropertiesDispatch.v
theories/ExamplesDispatch.v
theories/CxxText.v
theories/CxxFacts.v
theories/CxxLines.v
theories/CxxRun.v
theories/CxxHeads.v
theories/CxxJson.v
theories/CxxTop.v
theories/PropertiesCxx.v
theories/ExamplesCxx.v
theories/SerSpec.v
theories/SerFacts.v
theories/SerJson.v
theories/SerStable.v
theories/PropertiesSer.v
theories/ExamplesSer.v
theories/HanaSpec.v
theories/HanaFacts.v
theories/PropertiesHana.v
theories/ExamplesHana.v
theories/WireSpec.v
theories/WireFacts.v
theories/PropertiesWire.v
theories/ExamplesWire.v
theories/BoundSpec.v
theories/BoundFacts.v
theories/PropertiesBound.v
theories/ExamplesBound.v
theories/GrammarSpec.v
theories/GrammarFacts.v
theories/PropertiesGrammar.v
theories/ExamplesGrammar.v
theories/CMakeModel.v
theories/CMakeSpec.v
theories/CMakeFacts.v
theories/CMakeTop.v
theories/PropertiesCMake.v
theories/ExamplesCMake.v
theories/JBoundSpec.v
theories/JBoundFacts.v
theories/JBoundText.v
theories/PropertiesJBound.v
theories/ExamplesJBound.v
theories/JTreeSpec.v
theories/JTreeFacts.v
theories/JTreeGrow.v
theories/PropertiesJTree.v
theories/ExamplesJTree.v
theories/SizeSpec.v
theories/SizeBin.v
theories/SizeJson.v
theories/SizeText.v
theories/PropertiesSize.v
theories/ExamplesSize.v
theories/DepthSpec.v
theories/DepthFacts.v
theories/PropertiesDepth.v
theories/ExamplesDepth.v
theories/AddrSpec.v
theories/AddrFacts.v
theories/AddrJson.v
theories/AddrWrite.v
theories/AddrAgain.v
theories/PropertiesAddr.v
theories/ExamplesAddr.v
theories/EquivSpec.v
theories/EquivExact.v
theories/EquivRun.v
theories/EquivMap.v
theories/EquivPull.v
theories/EquivTop.v
theories/PropertiesEquiv.v
theories/ExamplesEquiv.v
theories/XTree.v
theories/HistSpec.v
theories/HistFacts.v
theories/PropertiesHist.v
theories/ExamplesHist.v
theories/SettleSpec.v
theories/SettleFacts.v
theories/PropertiesSettle.v
theories/ExamplesSettle.v
theories/JSettleSpec.v
theories/JSettleFacts.v
theories/PropertiesJSettle.v
theories/ExamplesJSettle.v
theories/AgainSpec.v
theories/AgainFacts.v
theories/AgainTop.v
theories/AgainComplete.v
theories/PropertiesAgain.v
theories/ExamplesAgain.v
theories/NumberSpec.v
theories/NumberFloat.v
theories/NumberReal.v
theories/NumberFacts.v
theories/NumberTop.v
theories/NumberText.v
theories/NumberConv.v
theories/NumberSingle.v
theories/PropertiesNumber.v
theories/ExamplesNumber.v
theories/PrevSpec.v
theories/PrevFacts.v
theories/PrevAgain.v
theories/PropertiesPrev.v
theories/PropertiesReach.v
theories/ExamplesPrev.v
theories/FullSpec.v
theories/FullFacts.v
theories/FullJson.v
theories/PropertiesFull.v
theories/ExamplesFull.v
theories/VisitSpec.v
theories/VisitFacts.v
theories/PropertiesVisit.v
theories/ExamplesVisit.v
theories/CutSpec.v
theories/CutFacts.v
theories/PropertiesCut.v
theories/ExamplesCut.v
theories/LocalSpec.v
theories/LocalFacts.v
theories/PropertiesLocal.v
theories/ExamplesLocal.v
theories/SessionSpec.v
theories/SessionFacts.v
theories/PropertiesSession.v
theories/ExamplesSession.v
