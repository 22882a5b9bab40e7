-Q theories Verif
theories/QUtil.v
theories/Ops.v
theories/OpsProofs.v
theories/IntQuant.v
theories/IntQuantProofs.v
theories/IntQuantProps.v
theories/Log2Q.v
theories/Scaling.v
theories/ScalingProofs.v
theories/ScalingProps.v
theories/BinaryTernary.v
theories/BinaryTernaryProps.v
theories/QuantTensor.v
theories/QuantTensorProps.v
theories/Linear.v
theories/LinearProps.v
theories/A2Q.v
theories/A2QProps.v
theories/Runtime.v
theories/RuntimeProps.v
theories/Minifloat.v
theories/MinifloatProofs.v
theories/MinifloatProps.v
theories/Export.v
theories/ExportProps.v
theories/Trunc.v
theories/TruncProps.v
theories/Groupwise.v
theories/GroupwiseProps.v
theories/BatchNorm.v
theories/BatchNormProps.v
theories/ConcatCollapse.v
theories/ConcatCollapseProps.v
theories/Equalize.v
theories/EqualizeProofs.v
theories/EqualizeProps.v
theories/ChannelSplit.v
theories/ChannelSplitProps.v
theories/Gpxq.v
theories/GpxqProps.v
theories/SamePad.v
theories/SamePadProps.v
theories/StateDict.v
theories/StateDictProps.v
theories/Rnn.v
theories/RnnProps.v
theories/Calibrate.v
theories/CalibrateProps.v
theories/Cache.v
theories/CacheProps.v
theories/Ste.v
theories/SteProps.v
theories/LearnedRound.v
theories/LearnedRoundProps.v
theories/Mse.v
theories/MseProps.v
theories/BitWidthLoss.v
theories/BitWidthLossProps.v
theories/RequantGraph.v
theories/RequantGraphProps.v
theories/RequantAlignProps.v
theories/RequantProofs.v
theories/RequantFloatProps.v
theories/RequantConvProps.v
theories/FloatQuant.v
theories/FloatQuantProps.v
theories/Percentile.v
theories/PercentileRank.v
theories/PercentileProps.v
theories/PercentileRankProps.v
theories/ChannelStats.v
theories/ChannelStatsProps.v
theories/EqLayout.v
theories/EqLayoutProps.v
theories/ActEqualize.v
theories/ActEqualizeProps.v
theories/CatEq.v
theories/CatEqProps.v
theories/EqAxis.v
theories/EqAxisProps.v
theories/Standardize.v
theories/StandardizeProofs.v
theories/StandardizeProps.v
theories/EqRangeProps.v
theories/CatWalkProofs.v
theories/CatWalkProps.v
theories/LayerReplace.v
theories/LayerReplaceProofs.v
theories/LayerReplaceProps.v
theories/Mha.v
theories/MhaProofs.v
theories/MhaProps.v
theories/MhaLoadProps.v
theories/Inject.v
theories/InjectProofs.v
theories/InjectProps.v
theories/KeywordProps.v
theories/Handlers.v
theories/HandlersProofs.v
theories/HandlersProps.v
theories/GpxqMode.v
theories/GpxqModeProofs.v
theories/GpxqModeProps.v
theories/FloatTensor.v
theories/FloatTensorProps.v
theories/Float8Export.v
theories/Float8ExportProps.v
theories/FloatScaling.v
theories/FloatScalingProps.v
theories/QonnxExport.v
theories/QonnxExportProps.v
theories/StaticScaling.v
theories/StaticScalingProps.v
theories/SliceWeight.v
theories/SliceWeightProps.v
theories/LayerRank.v
theories/LayerRankProofs.v
theories/LayerRankProps.v
theories/ExportState.v
theories/ExportStateProofs.v
theories/ExportStateProps.v
theories/Mx.v
theories/MxProps.v
theories/QuantState.v
theories/QuantStateProofs.v
theories/QuantStateProps.v
theories/ScaleBias.v
theories/ScaleBiasProps.v
theories/Hadamard.v
theories/HadamardProps.v
theories/IOLayers.v
theories/IOLayersProps.v
theories/GroupTensor.v
theories/GroupTensorProps.v
theories/FlexML.v
theories/FlexMLProps.v
theories/OldCkpt.v
theories/OldCkptProps.v
theories/EpInit.v
theories/EpInitProps.v
theories/PackWeights.v
theories/PackWeightsProps.v
