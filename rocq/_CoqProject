-Q theories Verif
theories/AccessProofs.v
theories/AccuracyProofs.v
theories/AccuracySpec.v
theories/AlignedDataModel.v
theories/AlignedDataProofs.v
theories/AlignedDataSpec.v
theories/AlignedModel.v
theories/AlignedProofs.v
theories/AlignedSpec.v
theories/AlignedStepProofs.v
theories/AlignedStepSpec.v
theories/ArithModel.v
theories/ArithProofs.v
theories/ArithSpec.v
theories/ArrOwnModel.v
theories/ArrOwnProofs.v
theories/ArrOwnSpec.v
theories/ArrPixelsProofs.v
theories/BallFloatModel.v
theories/BallFloatProofs.v
theories/BallFloatSpec.v
theories/BallModel.v
theories/BallProofs.v
theories/BenchModel.v
theories/BenchProofs.v
theories/BoxGeomProofs.v
theories/BoxIterProofs.v
theories/BoxModel.v
theories/BoxSpec.v
theories/ChannelModel.v
theories/ChannelProofs.v
theories/ChannelSpec.v
theories/ChronoModel.v
theories/ChronoProofs.v
theories/ChronoSpec.v
theories/ComposeProofs.v
theories/Conformance.v
theories/ContainerModel.v
theories/ContainerProofs.v
theories/ContainerSpec.v
theories/Conv2dModel.v
theories/Conv2dProofs.v
theories/ConvSpec.v
theories/DecoratorModel.v
theories/DecoratorProofs.v
theories/DecoratorSpec.v
theories/DerivativeModel.v
theories/DerivativeProofs.v
theories/DerivativeSpec.v
theories/DftModel.v
theories/DftProofs.v
theories/DftShapeModel.v
theories/DftShapeProofs.v
theories/DftShapeSpec.v
theories/DftSpec.v
theories/DistFloatModel.v
theories/DistFloatProofs.v
theories/DistFloatSpec.v
theories/DistModel.v
theories/DistProofs.v
theories/DistSpec.v
theories/ElementModel.v
theories/ElementProofs.v
theories/EquivarianceProofs.v
theories/EquivarianceSpec.v
theories/EvenMedianProofs.v
theories/ExitModel.v
theories/ExitProofs.v
theories/ExitSpec.v
theories/ExprModel.v
theories/ExprProofs.v
theories/ExprSpec.v
theories/FitsModel.v
theories/FitsProofs.v
theories/FitsSpec.v
theories/FlatDftModel.v
theories/FlatDftProofs.v
theories/FlatDftSpec.v
theories/FloatKernelModel.v
theories/FloatKernelProofs.v
theories/FloatKernelSpec.v
theories/FloatLimitsModel.v
theories/FloatLimitsProofs.v
theories/FloatLimitsSpec.v
theories/FloatModel.v
theories/FloatNoiseModel.v
theories/FloatNoiseProofs.v
theories/FloatNoiseSpec.v
theories/FloatProofs.v
theories/FloatSamplingModel.v
theories/FloatSamplingProofs.v
theories/FloatSamplingSpec.v
theories/FloatSpec.v
theories/FloatSumProofs.v
theories/FloatSumSpec.v
theories/FloatUndefinedProofs.v
theories/FourierIdentityProofs.v
theories/FourierIdentitySpec.v
theories/FourierProofs.v
theories/FourierSpec.v
theories/GradientProofs.v
theories/GradientSpec.v
theories/HsvModel.v
theories/HsvProofs.v
theories/InPlaceKernelModel.v
theories/InPlaceKernelProofs.v
theories/InPlaceKernelSpec.v
theories/InPlaceModel.v
theories/InPlaceOrderProofs.v
theories/InPlaceOrderSpec.v
theories/InPlaceProofs.v
theories/InPlaceSpec.v
theories/IncrementProofs.v
theories/IndexProofs.v
theories/IntOnDoubleProofs.v
theories/InterpModel.v
theories/InterpProofs.v
theories/InterpSpec.v
theories/IterModel.v
theories/IterProofs.v
theories/IterSpec.v
theories/KernelModel.v
theories/KernelProofs.v
theories/KernelSpec.v
theories/LargeKernelProofs.v
theories/LargeKernelSpec.v
theories/LargeOutsideProofs.v
theories/LcgProofs.v
theories/Lemmas.v
theories/LimitsModel.v
theories/LimitsProofs.v
theories/LimitsSpec.v
theories/LineKernelModel.v
theories/LineKernelProofs.v
theories/LoopModel.v
theories/LoopProofs.v
theories/MadFloatProofs.v
theories/MathModel.v
theories/MathProofs.v
theories/MathSpec.v
theories/MatrixModel.v
theories/MatrixProofs.v
theories/MedianModel.v
theories/MedianProofs.v
theories/MedianSpec.v
theories/MixedModel.v
theories/MixedProofs.v
theories/MixedSpec.v
theories/NanModel.v
theories/NanProofs.v
theories/NanSpec.v
theories/NestedModel.v
theories/NestedProofs.v
theories/NestedSpec.v
theories/OptionsModel.v
theories/OptionsProofs.v
theories/OptionsSpec.v
theories/OrderStatProofs.v
theories/OriginKernelProofs.v
theories/OwnModel.v
theories/OwnProofs.v
theories/OwnSpec.v
theories/PipeCopyModel.v
theories/PipeCopyProofs.v
theories/PipeCopySpec.v
theories/PipeThreadModel.v
theories/PipeThreadProofs.v
theories/PipeThreadSpec.v
theories/PipeThrowModel.v
theories/PipeThrowProofs.v
theories/PipeThrowSpec.v
theories/PipelineModel.v
theories/PipelineProofs.v
theories/PipelineSpec.v
theories/PlanModel.v
theories/PlanProofs.v
theories/PlanSpec.v
theories/PlanThreadModel.v
theories/PlanThreadProofs.v
theories/PlanThreadSpec.v
theories/PlanUseProofs.v
theories/PlanWorkModel.v
theories/PlanWorkProofs.v
theories/PlanWorkSpec.v
theories/PrintModel.v
theories/PrintProofs.v
theories/PrintSpec.v
theories/PropsAccess.v
theories/PropsAccuracy.v
theories/PropsAligned.v
theories/PropsAlignedData.v
theories/PropsArith.v
theories/PropsArrOwn.v
theories/PropsBall.v
theories/PropsBench.v
theories/PropsBox.v
theories/PropsChannel.v
theories/PropsConv.v
theories/PropsDecorator.v
theories/PropsDerivative.v
theories/PropsDft.v
theories/PropsDftShape.v
theories/PropsDist.v
theories/PropsElement.v
theories/PropsEquivariance.v
theories/PropsExit.v
theories/PropsExpr.v
theories/PropsFlatDft.v
theories/PropsFloat.v
theories/PropsFloatKernel.v
theories/PropsFloatLimits.v
theories/PropsFloatNoise.v
theories/PropsFloatSampling.v
theories/PropsFloatSum.v
theories/PropsFourier.v
theories/PropsFourierIdentity.v
theories/PropsGradient.v
theories/PropsHsv.v
theories/PropsInPlace.v
theories/PropsInPlaceKernel.v
theories/PropsIndex.v
theories/PropsInterp.v
theories/PropsIo.v
theories/PropsIter.v
theories/PropsKernel.v
theories/PropsLargeKernel.v
theories/PropsMad.v
theories/PropsMath.v
theories/PropsMatrix.v
theories/PropsMedian.v
theories/PropsMixed.v
theories/PropsNan.v
theories/PropsNdKernel.v
theories/PropsNested.v
theories/PropsNoise.v
theories/PropsOptions.v
theories/PropsOwn.v
theories/PropsPipeCopy.v
theories/PropsPipeThread.v
theories/PropsPipeThrow.v
theories/PropsPlan.v
theories/PropsPlanThread.v
theories/PropsPlanWork.v
theories/PropsPrint.v
theories/PropsQuantile.v
theories/PropsRandom.v
theories/PropsRegionAlias.v
theories/PropsRun.v
theories/PropsSampling.v
theories/PropsTask.v
theories/PropsText.v
theories/PropsThrow.v
theories/PropsTiled.v
theories/PropsTraverse.v
theories/PropsTypedKernel.v
theories/PropsTypedMedian.v
theories/PropsVector.v
theories/PropsWidth.v
theories/PropsWidthDist.v
theories/QuantileModel.v
theories/QuantileProofs.v
theories/QuantileSpec.v
theories/RandomModel.v
theories/RandomProofs.v
theories/RandomSpec.v
theories/RasterModel.v
theories/RasterSpec.v
theories/RegionAliasModel.v
theories/RegionAliasProofs.v
theories/RegionAliasSpec.v
theories/Res.v
theories/SamplingModel.v
theories/SamplingProofs.v
theories/SamplingSpec.v
theories/SeparableModel.v
theories/SeparableProofs.v
theories/SeparableSpec.v
theories/SeqModel.v
theories/SeqProofs.v
theories/Spec.v
theories/SubrasterModel.v
theories/SubrasterProofs.v
theories/TaskModel.v
theories/TaskProofs.v
theories/TaskSpec.v
theories/TextModel.v
theories/TextProofs.v
theories/TextSpec.v
theories/ThrowModel.v
theories/ThrowProofs.v
theories/ThrowSpec.v
theories/TiledModel.v
theories/TiledProofs.v
theories/TiledSpec.v
theories/TraverseModel.v
theories/TraverseProofs.v
theories/TypedKernelModel.v
theories/TypedKernelProofs.v
theories/TypedKernelSpec.v
theories/TypedKernelTypesProofs.v
theories/TypedMedianFloatProofs.v
theories/TypedMedianModel.v
theories/TypedMedianProofs.v
theories/TypedMedianSpec.v
theories/TypedOriginProofs.v
theories/TypesModel.v
theories/VecModel.v
theories/ViewPixelsProofs.v
theories/ViewProofs.v
theories/WholeProofs.v
theories/WidthDistModel.v
theories/WidthDistProofs.v
theories/WidthDistSpec.v
theories/WidthModel.v
theories/WidthProofs.v
theories/WidthSpec.v
