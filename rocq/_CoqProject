-Q theories Verif
theories/Base.v
theories/BaseLemmas.v
theories/TreeUtil.v
theories/TreeSpec.v
theories/TreeProofs.v
theories/ExtendProofs.v
theories/MutableProofs.v
theories/Props_Tree.v
theories/Resolve.v
theories/ResolveSpec.v
theories/ResolveProofs.v
theories/Props_Resolve.v
theories/Connections.v
theories/ConcretizeSpec.v
theories/ConcretizeProofs.v
theories/SlotProofs.v
theories/ConnSpec.v
theories/ConnProofs.v
theories/PlaceProofs.v
theories/RenameProofs.v
theories/Props_Conn.v
theories/NonSeq.v
theories/NonSeqSpec.v
theories/NonSeqProofs.v
theories/NonSeqRun.v
theories/NonSeqNet.v
theories/NonSeqDead.v
theories/NonSeqShape.v
theories/Props_NonSeq.v
theories/Seq.v
theories/SeqSpec.v
theories/SeqProofs.v
theories/SeqOrder.v
theories/SeqMain.v
theories/Props_Seq.v
theories/Batch.v
theories/BatchSpec.v
theories/BatchProofs.v
theories/Props_Batch.v
theories/Train.v
theories/TrainSpec.v
theories/TrainProofs.v
theories/TrainSteps.v
theories/TrainTotal.v
theories/Props_Train.v
theories/NdArray.v
theories/TrainArgs.v
theories/TrainArgsProofs.v
theories/Props_TrainArgs.v
theories/Loss.v
theories/LossSpec.v
theories/LossProofs.v
theories/LossMain.v
theories/Props_Loss.v
theories/Edit.v
theories/EditSpec.v
theories/EditProofs.v
theories/Props_Edit.v
theories/Cache.v
theories/CacheSpec.v
theories/CacheProofs.v
theories/CacheMode.v
theories/Props_Cache.v
theories/Modules.v
theories/ModulesSpec.v
theories/ModulesProofs.v
theories/Props_Modules.v
theories/Serial.v
theories/SerialSpec.v
theories/SerialProofs.v
theories/SerialFile.v
theories/SerialMods.v
theories/Props_Serial.v
theories/Precision.v
theories/PrecisionSpec.v
theories/PrecisionProofs.v
theories/Props_Precision.v
theories/Scaler.v
theories/ScalerSpec.v
theories/ScalerProofs.v
theories/ScalerStats.v
theories/Props_Scaler.v
theories/OneHot.v
theories/OneHotSpec.v
theories/OneHotProofs.v
theories/Props_OneHot.v
theories/Conformal.v
theories/ConformalSpec.v
theories/ConformalProofs.v
theories/Props_Conformal.v
theories/Eigen.v
theories/EigenSpec.v
theories/EigenProofs.v
theories/Props_Eigen.v
theories/Herm.v
theories/HermSpec.v
theories/HermProofs.v
theories/HermExamples.v
theories/Props_Herm.v
theories/Reshape.v
theories/ReshapeSpec.v
theories/ReshapeProofs.v
theories/ReshapeMain.v
theories/ConcatProofs.v
theories/Props_Reshape.v
theories/Einsum.v
theories/EinsumSpec.v
theories/EinsumProofs.v
theories/EinsumMain.v
theories/EinsumCompute.v
theories/EinsumBatch.v
theories/Props_Einsum.v
theories/MatMul.v
theories/EinsumObj.v
theories/MatMulSpec.v
theories/MatMulCore.v
theories/PathOrder.v
theories/MatMulMain.v
theories/MatMulFinal.v
theories/Props_MatMul.v
theories/ChainSpec.v
theories/ChainProofs.v
theories/Props_Chain.v
theories/CompileSpec.v
theories/ExtendOk.v
theories/CompileOk.v
theories/ChainCompile.v
theories/Props_Compile.v
theories/Composite.v
theories/CompositeSpec.v
theories/CompositeProofs.v
theories/CompositeMain.v
theories/Props_Composite.v
theories/ExtendKind.v
theories/ExtendOrder.v
theories/Props_Extend.v
theories/Layers.v
theories/LayersSpec.v
theories/LayersProofs.v
theories/LayersMain.v
theories/LayersMore.v
theories/LayersRows.v
theories/Props_Layers.v
theories/Strata.v
theories/StrataSpec.v
theories/StrataProofs.v
theories/StrataMain.v
theories/Props_Strata.v
theories/Uncertainty.v
theories/UncertaintySpec.v
theories/UncertaintyProofs.v
theories/UncertaintyMain.v
theories/UncertaintyTotal.v
theories/Props_Uncertainty.v
theories/Shapes.v
theories/ShapesSpec.v
theories/ShapesProofs.v
theories/Props_Shapes.v
theories/Distance.v
theories/DistanceSpec.v
theories/DistanceProofs.v
theories/DistanceMain.v
theories/DistanceBounds.v
theories/Props_Distance.v
theories/Adam.v
theories/AdamSpec.v
theories/AdamProofs.v
theories/Props_Adam.v
theories/Grad.v
theories/GradSpec.v
theories/GradProofs.v
theories/Props_Grad.v
theories/Linear.v
theories/LinearSpec.v
theories/LinearProofs.v
theories/Props_Linear.v
theories/ScalerFile.v
theories/ScalerFileSpec.v
theories/ScalerFileProofs.v
theories/ScalerFileMain.v
theories/Props_ScalerFile.v
theories/ConfState.v
theories/ConfStateSpec.v
theories/ConfStateProofs.v
theories/ConfStateMain.v
theories/Props_ConfState.v
theories/Params.v
theories/ParamsSpec.v
theories/ParamsProofs.v
theories/Props_Params.v
theories/TreeEq.v
theories/TreeEqSpec.v
theories/TreeEqProofs.v
theories/Props_TreeEq.v
theories/RenameSpec.v
theories/RenameStr.v
theories/RenameTree.v
theories/RenameExt.v
theories/RenameConn.v
theories/RenameNet.v
theories/Props_Rename.v
theories/MatMods.v
theories/MatModsSpec.v
theories/MatModsProofs.v
theories/Props_MatMods.v
theories/TrainModel.v
theories/Props_TrainModel.v
theories/Share.v
theories/ShareSpec.v
theories/ShareProofs.v
theories/Props_Share.v
theories/ConfShare.v
theories/Props_ConfShare.v
theories/Props_ShareCompile.v
theories/Progress.v
theories/ProgressSpec.v
theories/ProgressProofs.v
theories/Props_Progress.v
theories/ConfCalSpec.v
theories/ConfCalProofs.v
theories/Props_ConfCal.v
theories/EinsumRun.v
theories/MatMulRun.v
theories/Props_EinsumRun.v
theories/CompAcceptSpec.v
theories/CompAccept.v
theories/Props_CompAccept.v
theories/Dof.v
theories/DofSpec.v
theories/DofProofs.v
theories/DofMain.v
theories/Props_Dof.v
theories/Cover.v
theories/CoverSpec.v
theories/CoverProofs.v
theories/Props_Cover.v
theories/TrainAcceptSpec.v
theories/TrainAccept.v
theories/Access.v
theories/AccessSpec.v
theories/AccessProofs.v
theories/Props_Access.v
theories/Show.v
theories/ShowSpec.v
theories/ShowProofs.v
theories/Props_Show.v
theories/FineTune.v
theories/FineTuneSpec.v
theories/FineTuneProofs.v
theories/FineTuneMain.v
theories/Props_FineTune.v
theories/Subclass.v
theories/SubclassSpec.v
theories/SubclassProofs.v
theories/Props_Subclass.v
theories/Files.v
theories/Props_Files.v
theories/Versions.v
theories/VersionsSpec.v
theories/Props_Versions.v
theories/PrecTrain.v
theories/PrecTrainSpec.v
theories/PrecTrainProofs.v
theories/Props_PrecTrain.v
theories/Modes.v
theories/ModesSpec.v
theories/Props_Modes.v
theories/Draws.v
theories/DrawsSpec.v
theories/Props_Draws.v
theories/TrainKeys.v
theories/Props_TrainKeys.v
theories/Signals.v
theories/Props_Signals.v
theories/FuncMod.v
theories/FuncModSpec.v
theories/Props_FuncMod.v
theories/Recompile.v
theories/RecompileSpec.v
theories/Props_Recompile.v
theories/Props_Callback.v
theories/Nested.v
theories/NestedSpec.v
theories/Props_Nested.v
theories/Props_Shuffle.v
theories/GraphEdit.v
theories/Props_GraphEdit.v
theories/ScalerShare.v
theories/ScalerShareSpec.v
theories/ScalerShareProofs.v
theories/ScalerShareMain.v
theories/Props_ScalerShare.v
theories/ScalerTyped.v
theories/ScalerTypedProofs.v
theories/NonSeqNames.v
theories/Props_Names.v
theories/NamedProofs.v
theories/CoverStrata.v
theories/Sanity.v
theories/SanitySpec.v
theories/SanityProofs.v
theories/Props_Sanity.v
theories/Axes.v
theories/Props_Axes.v
theories/Wire.v
theories/Props_Wire.v
theories/ModState.v
theories/Props_ModState.v
theories/InfScores.v
theories/Props_InfScores.v
theories/Props_Resume.v
theories/Reload.v
theories/Props_Reload.v
theories/SavedData.v
theories/Props_SavedData.v
