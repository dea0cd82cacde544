-Q theories Verif
theories/Base.v
theories/BaseFacts.v
theories/Spec.v
theories/Primes.v
theories/Show.v
theories/ModelFunctions.v
theories/SpecFunctions.v
theories/ProofsFunctions.v
theories/PropsFunctions.v
theories/ModelMatch.v
theories/SpecMatch.v
theories/ProofsMatch.v
theories/PropsMatch.v
theories/ModelRegistry.v
theories/SpecRegistry.v
theories/ProofsRegistry.v
theories/PropsRegistry.v
theories/PropsRegistry2.v
theories/DataOperators.v
theories/ModelOperators.v
theories/SpecOperators.v
theories/ProofsOperators.v
theories/PropsOperators.v
theories/PropsOperators2.v
theories/ModelDatabase.v
theories/SpecDatabase.v
theories/ProofsDatabase.v
theories/ProofsDatabase2.v
theories/ProofsDatabase3.v
theories/PropsDatabase.v
theories/ModelIndex.v
theories/SpecIndex.v
theories/ProofsIndex.v
theories/PropsIndex.v
theories/ModelField.v
theories/SpecField.v
theories/ProofsField.v
theories/ProofsField2.v
theories/PropsField.v
theories/PropsField2.v
theories/ModelContract.v
theories/SpecContract.v
theories/ProofsContract.v
theories/PropsContract.v
theories/PropsContract2.v
theories/PropsContract3.v
theories/PropsContract4.v
theories/ModelPartition.v
theories/SpecPartition.v
theories/PropsPartition.v
theories/PropsPartition2.v
theories/PropsPartition3.v
theories/PropsPartition4.v
theories/DataTopology.v
theories/PropsTopology.v
theories/ModelExotic.v
theories/SpecExotic.v
theories/ProofsExotic.v
theories/PropsExotic.v
theories/ProofsExotic2.v
theories/PropsExotic2.v
theories/PropsExotic3.v
theories/SpecCompletion.v
theories/PropsCompletion.v
theories/ModelClosures.v
theories/SpecClosures.v
theories/PropsClosures.v
theories/PropsClosures2.v
theories/SpecParse.v
theories/ProofsText.v
theories/ProofsParse.v
theories/PropsParse.v
theories/PropsParse2.v
theories/ModelLagrangian.v
theories/SpecLagrangian.v
theories/ProofsLagrangian.v
theories/PropsLagrangian.v
theories/PropsLagrangian2.v
theories/PropsLagrangian3.v
theories/PropsLagrangian4.v
theories/PropsLagrangian5.v
theories/PropsLagrangian6.v
theories/ModelInfo.v
theories/SpecInfo.v
theories/PropsInfo.v
theories/PropsInfo2.v
theories/PropsInfo3.v
theories/PropsInfo4.v
theories/ModelHeavy.v
theories/SpecHeavy.v
theories/PropsHeavy.v
theories/ModelDeriv.v
theories/SpecDeriv.v
theories/PropsDeriv.v
theories/PropsDeriv2.v
theories/PropsDeriv3.v
theories/ModelCompare.v
theories/SpecCompare.v
theories/PropsCompare.v
theories/ModelPlace.v
theories/SpecPlace.v
theories/PropsPlace.v
theories/SpecTerms.v
theories/PropsTerms.v
theories/ShowRead.v
theories/ModelExport.v
theories/ProofsExport.v
theories/SpecExport.v
theories/ProofsExport2.v
theories/ProofsExport3.v
theories/ProofsExport4.v
theories/ProofsExport5.v
theories/ProofsExport6.v
theories/PropsExport.v
theories/ModelInvariants.v
theories/SpecInvariants.v
theories/PropsInvariants.v
theories/PropsRelabel.v
theories/ModelGenerate.v
theories/SpecGenerate.v
theories/PropsGenerate.v
theories/PropsGenerate2.v
theories/ModelJson.v
theories/SpecJson.v
theories/PropsJson.v
theories/DataSeries.v
theories/ModelSeries.v
theories/SpecSeries.v
theories/PropsSeries.v
theories/PropsSeries2.v
theories/PropsSeries3.v
theories/ModelDerivOps.v
theories/SpecDerivOps.v
theories/PropsDerivOps.v
theories/ModelLatex.v
theories/SpecLatex.v
theories/ProofsLatex.v
theories/PropsLatex.v
theories/ModelAnalysis.v
theories/SpecAnalysis.v
theories/PropsAnalysis.v
theories/PropsAnalysis2.v
theories/ModelSmeft.v
theories/PropsSmeft.v
theories/SpecDerivVertex.v
theories/ProofsDerivVertex.v
theories/ProofsDerivVertex2.v
theories/ProofsDerivVertex3.v
theories/PropsDerivVertex.v
theories/DataPaper.v
theories/ModelPaper.v
theories/SpecPaper.v
theories/PropsPaper.v
theories/SpecOperatorList.v
theories/ProofsOperatorList.v
theories/PropsOperatorList.v
theories/SpecPairing.v
theories/ProofsPairing.v
theories/PropsPairing.v
theories/SpecTrees.v
theories/ProofsTrees.v
theories/PropsTrees.v
theories/SpecCuts.v
theories/ProofsCuts.v
theories/PropsCuts.v
theories/ModelPickler.v
theories/SpecPickler.v
theories/ProofsPickler.v
theories/PropsPickler.v
theories/PropsBaryon.v
theories/ModelNine.v
theories/SpecNine.v
theories/PropsNine.v
theories/ModelFill.v
theories/SpecFill.v
theories/PropsFill.v
theories/SpecCharge.v
theories/PropsCharge.v
theories/ModelScale.v
theories/SpecScale.v
theories/PropsScale.v
theories/SpecRounded.v
theories/PropsRounded.v
theories/SpecPrimed.v
theories/PropsPrimed.v
theories/ModelSafe.v
theories/SpecSafe.v
theories/PropsSafe.v
