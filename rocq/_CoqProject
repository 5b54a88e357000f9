-Q theories Verif
theories/PyBase.v
theories/PyFacts.v
theories/ModelProgression.v
theories/SpecProgression.v
theories/ProofsProgression.v
theories/PropertiesProgression.v
theories/ModelPile.v
theories/SpecPile.v
theories/ProofsPile.v
theories/PropertiesPile.v
theories/ModelPileThreads.v
theories/SpecPileThreads.v
theories/ProofsPileThreads.v
theories/PropertiesPileThreads.v
theories/ModelFlow.v
theories/SpecFlow.v
theories/ProofsFlow.v
theories/PropertiesFlow.v
theories/ModelGraph.v
theories/SpecGraph.v
theories/ProofsGraph.v
theories/ProofsGraphAlg.v
theories/ProofsGraphPath.v
theories/ProofsGraphData.v
theories/PropertiesGraph.v
theories/ModelHeap.v
theories/SpecHeap.v
theories/ProofsHeap.v
theories/ModelPQueue.v
theories/SpecPQueue.v
theories/ProofsPQueue.v
theories/ProofsPQueueWake.v
theories/PropertiesPQueue.v
theories/ModelExc.v
theories/SpecExc.v
theories/ProofsExc.v
theories/ModelEvent.v
theories/SpecEvent.v
theories/ProofsEvent.v
theories/PropertiesEvent.v
theories/PropertiesExc.v
theories/ModelProcessor.v
theories/SpecProcessor.v
theories/ProofsProcessor.v
theories/ProofsProcessorRun.v
theories/ProofsProcessorCap.v
theories/ProofsProcessorDeny.v
theories/ProofsProcessorFate.v
theories/PropertiesProcessor.v
theories/ModelPubSub.v
theories/SpecPubSub.v
theories/ProofsPubSub.v
theories/PropertiesPubSub.v
theories/ModelGroup.v
theories/SpecGroup.v
theories/ProofsGroup.v
theories/PropertiesGroup.v
theories/ModelStream.v
theories/ModelRetry.v
theories/SpecStream.v
theories/ProofsStream.v
theories/PropertiesStream.v
theories/ModelSim.v
theories/SpecSim.v
theories/ProofsLev.v
theories/ProofsSim.v
theories/ProofsFuzzy.v
theories/PropertiesSim.v
theories/ModelList.v
theories/SpecList.v
theories/ProofsList.v
theories/PropertiesList.v
theories/ModelJson.v
theories/SpecJson.v
theories/ProofsJson.v
theories/PropertiesJson.v
theories/ModelNum.v
theories/PropertiesNum.v
theories/ModelYaml.v
theories/SpecYaml.v
theories/PropertiesYaml.v
theories/ModelCall.v
theories/SpecCall.v
theories/ProofsCall.v
theories/PropertiesCall.v
theories/ModelHash.v
theories/SpecHash.v
theories/ProofsHash.v
theories/PropertiesHash.v
theories/ModelLexer.v
theories/SpecLexer.v
theories/ProofsLexer.v
theories/PropertiesLexer.v
theories/ModelParser.v
theories/SpecParser.v
theories/ProofsParser.v
theories/ProofsDoc.v
theories/PropertiesParser.v
theories/ModelResolver.v
theories/SpecResolver.v
theories/ProofsResolver.v
theories/PropertiesResolver.v
theories/ModelFuzzy.v
theories/SpecFuzzy.v
theories/ProofsFuzzyName.v
theories/ProofsFuzzyProg.v
theories/PropertiesFuzzy.v
theories/ModelGuard.v
theories/SpecGuard.v
theories/ProofsGuard.v
theories/PropertiesGuard.v
theories/ModelParams.v
theories/SpecParams.v
theories/ProofsParams.v
theories/PropertiesParams.v
theories/ModelSpec.v
theories/SpecSpec.v
theories/ProofsSpec.v
theories/ProofsField.v
theories/PropertiesSpec.v
theories/PropertiesField.v
theories/ModelSerde.v
theories/SpecSerde.v
theories/ProofsSerde.v
theories/ProofsSerdeNode.v
theories/ProofsSerdePile.v
theories/ModelSerdeGraph.v
theories/ProofsSerdeGraph.v
theories/PropertiesSerde.v
theories/ModelToDict.v
theories/PropertiesToDict.v
theories/ModelLeak.v
theories/PropertiesLeak.v
theories/ModelLcall.v
theories/PropertiesLcall.v
theories/ModelExtract.v
theories/PropertiesExtract.v
theories/ModelValidate.v
theories/PropertiesValidate.v
theories/ModelDump.v
theories/PropertiesDump.v
theories/ModelTypescript.v
theories/PropertiesTypescript.v
theories/ModelNode.v
theories/PropertiesNode.v
theories/ModelPath.v
theories/PropertiesPath.v
theories/ModelClean.v
theories/PropertiesClean.v
theories/ModelDeadline.v
theories/PropertiesDeadline.v
theories/ModelChannel.v
theories/PropertiesChannel.v
theories/ModelCreated.v
theories/PropertiesCreated.v
theories/ModelHashable.v
theories/PropertiesHashable.v
theories/ModelTypeName.v
theories/PropertiesTypeName.v
theories/ModelGraphThreads.v
theories/ProofsGraphThreads.v
theories/PropertiesGraphThreads.v
theories/ModelFlowThreads.v
theories/PropertiesFlowThreads.v
theories/ModelImplements.v
theories/PropertiesImplements.v
theories/ModelSimFloat.v
theories/ProofsSimFloat.v
theories/PropertiesSimFloat.v
theories/ModelNumFloat.v
theories/ProofsNumFloat.v
theories/PropertiesNumFloat.v
theories/ModelBridge.v
theories/PropertiesBridge.v
theories/ModelRetryFloat.v
theories/ProofsRetryFloat.v
theories/PropertiesRetryFloat.v
theories/ModelSchemaModel.v
theories/PropertiesSchemaModel.v
theories/ModelSentinel.v
theories/PropertiesSentinel.v
theories/ModelPileAsync.v
theories/PropertiesPileAsync.v
theories/ModelExecute.v
theories/PropertiesExecute.v
theories/ModelDiff.v
theories/PropertiesDiff.v
theories/ModelEquality.v
theories/PropertiesEquality.v
theories/ModelQueue.v
theories/SpecQueue.v
theories/ProofsQueue.v
theories/PropertiesQueue.v
theories/ModelReport.v
theories/PropertiesReport.v
theories/PropertiesFlowAlone.v
theories/PropertiesFlowSerial.v
theories/ModelInterrupt.v
theories/SpecInterrupt.v
theories/ProofsInterrupt.v
theories/ProofsStranded.v
theories/ProofsListed.v
theories/PropertiesInterrupt.v
theories/ProofsOutcome.v
theories/PropertiesSerdeErrors.v
theories/ModelPileRead.v
theories/PropertiesPileRead.v
theories/ModelProcessorParams.v
theories/PropertiesProcessorParams.v
theories/ModelExecuteCut.v
theories/ProofsExecuteCut.v
theories/PropertiesExecuteCut.v
theories/PropertiesSerdeLoad.v
theories/SpecProcessorLive.v
theories/ProofsProcessorLive.v
theories/ProofsProcessorRounds.v
theories/PropertiesProcessorLive.v
theories/ModelSemaphore.v
theories/SpecSemaphore.v
theories/ProofsSemaphore.v
theories/PropertiesSemaphore.v
theories/ModelJsonText.v
theories/PropertiesJsonText.v
theories/ModelAssign.v
theories/PropertiesAssign.v
theories/PropertiesCleanup.v
theories/ModelPathAwait.v
theories/PropertiesPathAwait.v
theories/ModelLiveInput.v
theories/PropertiesLiveInput.v
theories/ModelFlowDirect.v
theories/PropertiesFlowDirect.v
theories/ModelGraphDirect.v
theories/PropertiesGraphDirect.v
theories/ModelSingleton.v
theories/PropertiesSingleton.v
theories/ModelImport.v
theories/PropertiesImport.v
