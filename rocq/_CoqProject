-Q theories Verif
theories/Base.v
theories/Spec.v
theories/Geometry.v
theories/Traits.v
theories/TraitsProofs.v
theories/Distributions.v
theories/PropGeometry.v
theories/Runtime.v
theories/Ops.v
theories/RealOps.v
theories/TensorSem.v
theories/ElemGeneric.v
theories/KernelsElem.v
theories/OneOut.v
theories/ElemOps.v
theories/ElemProofs.v
theories/Formulas.v
theories/Concrete.v
theories/PropElem.v
theories/PropElem2.v
theories/PropElemR.v
theories/Axis.v
theories/AccRuns.v
theories/Loops.v
theories/SliceOps.v
theories/SliceGeo.v
theories/SliceProofs.v
theories/SliceReduce.v
theories/RSum.v
theories/PropSlice.v
theories/FiberOps.v
theories/FiberGeo.v
theories/FiberProofs.v
theories/FiberReduce.v
theories/PropFiber.v
theories/SoftmaxOps.v
theories/PairGeo.v
theories/SoftmaxProofs.v
theories/SoftmaxRuns.v
theories/Sequence.v
theories/XReals.v
theories/SoftmaxScalar.v
theories/PropSoftmax.v
theories/SplitGeo.v
theories/MatOps.v
theories/MatProofs.v
theories/GemmProofs.v
theories/GemmRuns.v
theories/Nrm2Proofs.v
theories/PropMat.v
theories/Serial.v
theories/NdRuns.v
theories/SubcopyOps.v
theories/SubcopyKernel.v
theories/SubcopyLoops.v
theories/SubcopyRuns.v
theories/ScatterRuns.v
theories/TileCopy.v
theories/PropCopy.v
theories/KeepRuns.v
theories/LossOps.v
theories/LossProofs.v
theories/LossRuns.v
theories/CommRuns.v
theories/TotalSum.v
theories/EmbedRuns.v
theories/EmbedReal.v
theories/AnyRuns.v
theories/Serial2.v
theories/CrossEntropy.v
theories/IntCopy.v
theories/PropLoss.v
theories/Psound.v
theories/Calls.v
theories/Binary32.v
theories/PropSched.v
theories/Config.v
theories/PropConfig.v
theories/RandnOps.v
theories/RandnProofs.v
theories/PropRandn.v
theories/PropDeriv.v
theories/PropKahan.v
theories/Redux.v
theories/ReduxRuns.v
theories/PropRedux.v
theories/PropReduxMax.v
theories/ReduxExamples.v
theories/FlashOps.v
theories/FlashGeo.v
theories/MultiRuns.v
theories/FlashProofs.v
theories/FlashRuns.v
theories/FlashBwd.v
theories/AttnSpec.v
theories/PropFlash.v
theories/FlashExamples.v
theories/TileOps.v
theories/TileProofs.v
theories/PropTile.v
theories/XTriples.v
theories/HasRuns.v
theories/TapeMath.v
theories/PyLayers.v
theories/VjpMath.v
theories/Tape.v
theories/PyLinear.v
theories/HasRuns2.v
theories/PySimple.v
theories/PyNorm.v
theories/Backprop.v
theories/Frob.v
theories/CeLoss.v
theories/PropLayers.v
theories/PropModel.v
theories/PyTrain.v
theories/HasRuns3.v
theories/AttMath.v
theories/PyAttn.v
theories/HasFlash.v
theories/PyFlash.v
theories/PropAttn.v
theories/PropTrain.v
theories/PyAdam.v
theories/PropAdam.v
theories/ConcreteEnv.v
theories/LayerExamples.v
theories/TrainExamples.v
theories/PyModels.v
theories/BuildEnv.v
theories/GptBuild.v
theories/BuildModel.v
theories/OptBuild.v
theories/GptSpec.v
theories/GptModel.v
theories/GptEval.v
theories/GptRun.v
theories/Segments.v
theories/SegDiff.v
theories/PyMixer.v
theories/MixSpec.v
theories/MixerRuns.v
theories/MixerSeg.v
theories/PropMixer.v
theories/PyMixModels.v
theories/MixBuild.v
theories/MixModel.v
theories/PropMixModel.v
theories/MixExamples.v
theories/SegTrain.v
theories/PropMixTrain.v
theories/MixTrainExamples.v
theories/PropGpt.v
theories/GptTrain.v
theories/PropGptTrain.v
theories/PropCausal.v
theories/GptExamples.v
theories/GptTrainExamples.v
theories/Fp32.v
theories/KahanErr.v
theories/PropFp.v
theories/ReluSpec.v
theories/ReluBuild.v
theories/ReluModel.v
theories/OptState.v
theories/PropRelu.v
theories/ReluExamples.v
theories/NumpyIO.v
theories/PropNumpy.v
theories/Checkpoint.v
theories/PropCheckpoint.v
theories/CkExamples.v
theories/PropResume.v
theories/GptTorchSpec.v
theories/GptTorch.v
theories/TorchMath.v
theories/PropTorch.v
theories/PropTorchBack.v
theories/PropTorchGpt.v
theories/TorchExamples.v
theories/MixTorchSpec.v
theories/MixTorch.v
theories/PropMixTorch.v
theories/MixTorchExamples.v
theories/ReluTorch.v
theories/PropReluTorch.v
theories/ReluTorchExamples.v
theories/PropInfer.v
theories/InferTrain.v
theories/InferExamples.v
theories/LinBuild.v
theories/PropDeepLinear.v
theories/LinExamples.v
theories/CeBuild.v
theories/CeExamples.v
theories/LinTrain.v
theories/LinTrainExamples.v
