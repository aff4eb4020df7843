-Q theories Verif
theories/ModelStr.v
theories/ModelRng.v
theories/ModelCore.v
theories/SpecCore.v
theories/SpecStateful.v
theories/ProofsStr.v
theories/ProofsMap.v
theories/ProofsNames.v
theories/ProofsRng.v
theories/ProofsEvolve.v
theories/ProofsRun.v
theories/Demo.v
theories/ProofsOps.v
theories/ProofsKeys.v
theories/ProofsModule.v
theories/ProofsSim.v
theories/ProofsGraft.v
theories/ProofsStateful.v
theories/ProofsLoop.v
theories/SpecNames.v
theories/ProofsScope.v
theories/ProofsQuiet.v
theories/ProofsBlueprint.v
theories/ModelDict.v
theories/ModelTree.v
theories/ModelHeap.v
theories/ProofsDict.v
theories/ProofsTree.v
theories/ProofsHeap.v
theories/SpecNext.v
theories/ProofsOwn.v
theories/ProofsNext.v
theories/ModelWith.v
theories/ProofsWith.v
theories/ModelTransform.v
theories/SpecLift.v
theories/ProofsLift.v
theories/ModelShape.v
theories/ProofsShape.v
theories/ModelRnn.v
theories/ProofsRnn.v
theories/ModelNets.v
theories/ModelReal.v
theories/ModelThreads.v
theories/ProofsThreads.v
theories/ModelObjects.v
theories/SpecReplay.v
theories/ProofsReplay.v
theories/SpecStr.v
theories/ProofsLex.v
theories/ModelParamsTree.v
theories/SpecParamsTree.v
theories/ProofsParamsTree.v
theories/Properties01.v
theories/Properties02.v
theories/Properties03.v
theories/Properties04.v
theories/Properties05.v
theories/Properties06.v
theories/Properties07.v
theories/Properties08.v
theories/Properties09.v
theories/Properties10.v
theories/Properties11.v
theories/Properties12.v
theories/Properties13.v
theories/Properties14.v
theories/Properties15.v
theories/Properties16.v
theories/Properties17.v
theories/Properties18.v
theories/Properties19.v
theories/Properties20.v
theories/Properties21.v
theories/ModelVqEma.v
theories/Properties22.v
theories/ModelPool.v
theories/Properties23.v
theories/ModelLayers.v
theories/Properties24.v
theories/Properties25.v
theories/Properties26.v
theories/ModelInit.v
theories/Properties27.v
theories/ModelBasic.v
theories/Properties28.v
theories/Properties29.v
theories/ModelUtils.v
theories/Properties30.v
theories/ModelDot.v
theories/Properties31.v
theories/ModelImageNets.v
theories/Properties32.v
theories/ModelConv.v
theories/Properties33.v
theories/Properties34.v
theories/ModelTransformer.v
theories/Properties35.v
theories/ModelImpala.v
theories/Properties36.v
theories/ModelActor.v
theories/Properties37.v
theories/Properties38.v
theories/ModelClass.v
theories/Properties39.v
theories/ModelConvLSTM.v
theories/Properties40.v
theories/ModelGroupNorm.v
theories/Properties41.v
theories/ModelTopk.v
theories/Properties42.v
theories/ModelPruning.v
theories/Properties43.v
theories/ModelImagenet.v
theories/Properties44.v
theories/ModelCheckpoint.v
theories/Properties45.v
theories/ModelSampling.v
theories/Properties46.v
theories/ModelTraining.v
theories/Properties47.v
theories/Properties48.v
theories/ProofsDraws.v
theories/ModelJitCache.v
theories/Properties49.v
theories/Properties50.v
theories/ModelTestUtils.v
theories/Properties51.v
theories/ModelGrad.v
theories/Properties52.v
theories/ModelImageValues.v
theories/Properties53.v
theories/Properties54.v
theories/Properties55.v
theories/Properties56.v
theories/ModelAtari.v
theories/Properties57.v
theories/Properties58.v
theories/Properties59.v
theories/ModelDtype.v
theories/Properties60.v
theories/Properties61.v
theories/ModelVtrace.v
theories/Properties62.v
theories/Properties63.v
theories/ModelCond.v
theories/Properties64.v
theories/ModelRank.v
theories/Properties65.v
theories/Properties66.v
theories/Properties67.v
theories/ModelFormat.v
theories/ModelCheckpoints.v
theories/Properties68.v
theories/Properties69.v
theories/Properties70.v
theories/Properties71.v
theories/Properties72.v
theories/Properties73.v
theories/ModelRepr.v
theories/ModelReprFiles.v
theories/Properties75.v
theories/Properties76.v
theories/Properties77.v
theories/Properties78.v
theories/ModelReplicas.v
theories/ModelGradients.v
theories/Properties79.v
theories/Properties80.v
theories/Properties81.v
theories/Properties82.v
theories/Properties83.v
theories/Properties74.v
theories/Properties85.v
theories/ModelBackprop.v
theories/Properties86.v
theories/Properties87.v
theories/Properties88.v
theories/ModelDataParallel.v
theories/Properties89.v
theories/ModelConvGrad.v
theories/Properties84.v
theories/Properties90.v
theories/Properties91.v
theories/ModelAttGrad.v
theories/Properties92.v
theories/Properties93.v
theories/ModelNotebooks.v
theories/Properties94.v
theories/Properties95.v
theories/ModelMini.v
theories/Properties96.v
theories/ModelFreeze.v
theories/Properties97.v
theories/ModelDocs.v
theories/Properties98.v
theories/Properties99.v
theories/ModelPackaging.v
theories/Properties100.v
