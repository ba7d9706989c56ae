-Q theories Verif
theories/Base.v
theories/LogVal.v
theories/SparseModel.v
theories/TableSpec.v
theories/BaseFacts.v
theories/SparseFacts.v
theories/SparseBinop.v
theories/SparseOps.v
theories/SparseProofs.v
theories/SumFacts.v
theories/SparseProofs2.v
theories/SparseProofs3.v
theories/SparseExamples.v
theories/PropSparse.v
theories/Numpy.v
theories/DenseModel.v
theories/DenseSpec.v
theories/DenseFacts.v
theories/DenseProofs.v
theories/DenseProofs2.v
theories/DenseProofs3.v
theories/DenseExamples.v
theories/DenseEmpty.v
theories/DenseNan.v
theories/PropDense.v
theories/GraphModel.v
theories/GraphFacts.v
theories/SepsetFacts.v
theories/GraphBuild.v
theories/GraphMk.v
theories/GraphPass.v
theories/GraphLaws.v
theories/GraphProd.v
theories/GraphTree.v
theories/GraphInv.v
theories/GraphInv2.v
theories/GraphRun.v
theories/TreeOrder.v
theories/JunctionTree.v
theories/GraphCalib.v
theories/GraphExamples.v
theories/GraphTheorems.v
theories/GraphTheorems2.v
theories/GraphSched.v
theories/GraphSweep.v
theories/TreeWeight.v
theories/GraphConv.v
theories/GraphExamples2.v
theories/GraphExamples3.v
theories/PropGraph.v
theories/PropMessage.v
theories/Rfield.v
theories/Mat.v
theories/MatOps.v
theories/UtilsModel.v
theories/UtilsFacts.v
theories/UtilsFacts2.v
theories/PropUtils.v
theories/GaussModel.v
theories/MxFacts.v
theories/MxBlocks.v
theories/MxSel.v
theories/MxSchur.v
theories/MxSmall.v
theories/GaussFacts.v
theories/GaussOps.v
theories/GaussOps2.v
theories/GaussReduce.v
theories/GaussMarg.v
theories/GaussMarg2.v
theories/GaussEq.v
theories/GaussExamples.v
theories/PropGauss.v
theories/SigmaModel.v
theories/SigmaFacts.v
theories/SigmaChol.v
theories/SigmaJoint.v
theories/PropSigma.v
theories/MixModel.v
theories/MixFacts.v
theories/MixMoments.v
theories/MixNorm.v
theories/MixMarg.v
theories/MixEq.v
theories/MixExamples.v
theories/PropMix.v
theories/IntGauss.v
theories/IntMarg.v
theories/IntFull.v
theories/PropIntegral.v
theories/FactModel.v
theories/FactFacts.v
theories/FactOps.v
theories/FactReduce.v
theories/FactMarg.v
theories/FactMerge.v
theories/FactInt.v
theories/FactChain.v
theories/FactEq.v
theories/FactExamples.v
theories/FactExamples2.v
theories/FactStats.v
theories/PropFact.v
theories/IntMoment1.v
theories/IntMoment.v
theories/IntMoment2.v
theories/IntKL.v
theories/IntKL2.v
theories/PropMoment.v
theories/MxLinear.v
theories/LinModel.v
theories/IntConst.v
theories/LinFacts.v
theories/LinGauss.v
theories/LinExamples.v
theories/PropLinear.v
theories/NlgModel.v
theories/NlgFacts.v
theories/NlgJoint.v
theories/NlgOps.v
theories/NlgOps2.v
theories/NlgGeneral.v
theories/NlgMix.v
theories/NlgExamples.v
theories/NlgExamples2.v
theories/NlgExamples3.v
theories/PosGraph.v
theories/PosTree.v
theories/PosSweep.v
theories/PosTheorems.v
theories/PosTotal.v
theories/GaussPsd.v
theories/GaussPsdInt.v
theories/GaussLaws.v
theories/GaussLaws2.v
theories/GaussTotal.v
theories/NlgMore.v
theories/NlgWeight.v
theories/PropNlg.v
theories/GaussGraph.v
theories/PosConv.v
theories/GaussConv.v
theories/GaussGraphEx.v
theories/GaussConvEx.v
theories/GaussStale.v
theories/PropGaussGraph.v
theories/DenseLaws.v
theories/DenseGraph.v
theories/DenseGraph2.v
theories/DenseGraph3.v
theories/DenseGraphEx.v
theories/DenseLinedEx.v
theories/DenseZero.v
theories/DenseJoint.v
theories/DenseZeroLaws.v
theories/DenseZeroSweep.v
theories/DenseQuery.v
theories/DenseQueryEx.v
theories/DenseQueryZero.v
theories/DenseQueryFlip.v
theories/PropDenseGraph.v
theories/TemplateModel.v
theories/TemplateFacts.v
theories/PropTemplate.v
theories/MixOptModel.v
theories/MixOptFacts.v
theories/MixOptFacts2.v
theories/MixOptDiv.v
theories/MixOptDiv2.v
theories/MixOptDiv3.v
theories/MixOptEx.v
theories/PropMixOpt.v
theories/SampleModel.v
theories/IntSub.v
theories/MxChol.v
theories/SampleFacts.v
theories/SampleMix.v
theories/SampleNlg.v
theories/SampleEx.v
theories/PropSample.v
theories/ArrModel.v
theories/ArrFacts.v
theories/ConvModel.v
theories/ConvFacts.v
theories/ConvEx.v
theories/PropConv.v
theories/AnimModel.v
theories/AnimFacts.v
theories/AnimLines.v
theories/AnimGraph.v
theories/AnimFrames.v
theories/AnimEx.v
theories/PropAnim.v
theories/FactTabModel.v
theories/FactTabFacts.v
theories/FactTabFails.v
theories/FactTabEx.v
theories/PropFactTab.v
theories/GraphLocal.v
theories/GraphLocalEx.v
theories/GraphLocalMore.v
theories/GraphLocalEx2.v
theories/GraphLocalThm.v
theories/GraphLocalGauss.v
theories/PropLocal.v
theories/ShowModel.v
theories/ShowSpec.v
theories/ShowText.v
theories/ShowFrames.v
theories/ShowThm.v
theories/ShowEx.v
theories/PropShow.v
theories/NlgGraphModel.v
theories/NlgTree1.v
theories/NlgTree2.v
theories/NlgTree3.v
theories/NlgTree4.v
theories/NlgTree5.v
theories/NlgTreeEx.v
theories/NlgTree6.v
theories/NlgTreeFaint.v
theories/PropNlgTree.v
theories/NlgSpreadModel.v
theories/NlgSpread1.v
theories/NlgSpread2.v
theories/NlgSpread3.v
theories/NlgSpread4.v
theories/NlgSpread5.v
theories/NlgSpread6.v
theories/PropNlgSpread.v
theories/NlgJointModel.v
theories/NlgJoint1.v
theories/NlgJoint2.v
theories/PropNlgJoint.v
theories/OperModel.v
theories/OperFacts.v
theories/PropOper.v
theories/PlotModel.v
theories/PlotFacts.v
theories/PlotMix.v
theories/PlotMesh.v
theories/PlotMore.v
theories/PlotEx.v
theories/MixGraphModel.v
theories/MixGraph.v
theories/PropPlot.v
theories/TraceModel.v
theories/TraceFacts.v
theories/TraceRun.v
theories/TraceShow.v
theories/TraceEx.v
theories/PropTrace.v
theories/FactSparseModel.v
theories/FactSparseFacts.v
theories/FactSparseEx.v
theories/FactSparseFails.v
theories/PropFactSparse.v
theories/DisplayModel.v
theories/DisplayFacts.v
theories/DisplayMore.v
theories/DisplayEx.v
theories/PropDisplay.v
theories/PartsFacts.v
theories/PartsBoth.v
theories/PropParts.v
theories/ElimFacts.v
theories/ElimEx.v
theories/ElimGauss.v
theories/ElimGaussEx.v
theories/PropElim.v
theories/ColumnFacts.v
theories/ColumnEx.v
theories/PropColumn.v
theories/KlRaw.v
theories/KlRawEx.v
theories/PropKlRaw.v
theories/CopyFacts.v
theories/CopyTab.v
theories/PropCopy.v
theories/ElimDense.v
theories/PropElimDense.v
theories/StoppedEx.v
theories/PropStopped.v
theories/ObserveModel.v
theories/ObserveFacts.v
theories/ObserveEx.v
theories/PropObserve.v
