-Q theories Verif
theories/Base.v
theories/Geo.v
theories/Topology.v
theories/Clip.v
theories/Normalize.v
theories/Simplify.v
theories/Bytes.v
theories/Shp.v
theories/Dbf.v
theories/Shapefile.v
theories/Quantize.v
theories/Spec.v
theories/GeoProofs.v
theories/GeoProps.v
theories/TopoSpec.v
theories/TopoProofs.v
theories/BuildProofs.v
theories/BuildProps.v
theories/ClipSpec.v
theories/ClipEdgeProofs.v
theories/ClipEdgeProps.v
theories/ClipTopoSpec.v
theories/ClipTopoProofs.v
theories/ClipTopoLaws.v
theories/ClipTopoProps.v
theories/ClipTwiceSpec.v
theories/ClipTrace.v
theories/ClipTwice.v
theories/ClipTwiceProps.v
theories/ClipLocal.v
theories/ClipLocalProps.v
theories/FrameSpec.v
theories/FrameProofs.v
theories/FrameTopo.v
theories/FrameProps.v
theories/OrderSpec.v
theories/OrderProofs.v
theories/OrderProps.v
theories/BuildFrameSpec.v
theories/BuildFrame.v
theories/BuildFrameProps.v
theories/SimplifyProofs.v
theories/SimplifyLaws.v
theories/SimplifyHeap.v
theories/SimplifyProps.v
theories/SimplifySpec.v
theories/SimplifyWeights.v
theories/SimplifyWeightProps.v
theories/SimplifyOrder.v
theories/SimplifyOrderProps.v
theories/BytesSpec.v
theories/BytesProofs.v
theories/ShpSpec.v
theories/ShpProofs.v
theories/ShpLaws.v
theories/ShpProps.v
theories/DbfSpec.v
theories/DbfProofs.v
theories/DbfLaws.v
theories/DbfProps.v
theories/SfSpec.v
theories/SfProofs.v
theories/QuantizeSpec.v
theories/QuantizeProofs.v
theories/QuantizeLaws.v
theories/SfProps.v
theories/QuantizeProps.v
theories/NormSpec.v
theories/NormProofs.v
theories/NormRing.v
theories/NormJoin.v
theories/NormTopo.v
theories/NormReturn.v
theories/NormLaws.v
theories/Display.v
theories/Pipeline.v
theories/ComposeSpec.v
theories/ComposeProofs.v
theories/ComposeLaws.v
theories/NormAdjacent.v
theories/NormTwice.v
theories/NormProps.v
theories/PipelineSpec.v
theories/PipelineProofs.v
theories/DisplaySpec.v
theories/DisplayProofs.v
theories/DisplayLaws.v
theories/DisplayProps.v
theories/ErrorTrait.v
theories/ErrorSpec.v
theories/ErrorProofs.v
theories/ErrorProps.v
theories/ComposeProps.v
theories/PipelineProps.v
theories/NormSafe.v
theories/ProgramProofs.v
theories/ProgramProps.v
theories/Encoding.v
theories/EncodingSpec.v
theories/EncodingProofs.v
theories/EncodingProps.v
theories/PlaceSpec.v
theories/PlaceProofs.v
theories/PlaceNorm.v
theories/PlaceClip.v
theories/PlaceLaws.v
theories/PlacePipe.v
theories/PlaceProps.v
theories/CheckedSpec.v
theories/Checked.v
theories/CheckedProps.v
theories/SimplifyFrame.v
theories/SimplifyFrameProps.v
theories/Memory.v
theories/MemorySpec.v
theories/MemoryProofs.v
theories/MemoryNorm.v
theories/MemoryProps.v
theories/Truncate.v
theories/TruncateProps.v
theories/NormShift.v
theories/NormShiftProps.v
theories/NormCanonSpec.v
theories/NormCanon.v
theories/NormCanonProps.v
theories/NormFrameSpec.v
theories/NormFrame.v
theories/NormFrameProps.v
theories/ClipAreaSpec.v
theories/ClipArea.v
theories/ClipAreaProps.v
theories/SimplifyPlaceSpec.v
theories/SimplifyPlace.v
theories/SimplifyPlaceProps.v
theories/Reader.v
theories/ReaderSpec.v
theories/ReaderProofs.v
theories/ReaderProps.v
theories/RebuildSpec.v
theories/RebuildProofs.v
theories/RebuildProps.v
theories/ClipStepsSpec.v
theories/ClipSteps.v
theories/ClipStepsTopo.v
theories/ClipStepsProps.v
theories/DataSpec.v
theories/DataProofs.v
theories/DataProps.v
theories/Tests.v
theories/MergeSpec.v
theories/NormMerge.v
theories/NormMerged.v
theories/MergeProps.v
theories/CrossSpec.v
theories/CrossProofs.v
theories/CrossProps.v
theories/SizeSpec.v
theories/SizeProofs.v
theories/SizeProps.v
theories/LocalSpec.v
theories/LocalProofs.v
theories/LocalProps.v
theories/HeapSpec.v
theories/HeapProofs.v
theories/HeapProps.v
theories/CostSpec.v
theories/CostProofs.v
theories/CostProps.v
theories/OnceSpec.v
theories/OnceProofs.v
theories/OnceProps.v
theories/FormSpec.v
theories/FormProofs.v
theories/FormSimplify.v
theories/FormFixed.v
theories/FormProps.v
theories/DamageSpec.v
theories/DamageProofs.v
theories/DamageProps.v
theories/ShuffleSpec.v
theories/ShuffleBuild.v
theories/ShuffleNorm.v
theories/ShuffleTopo.v
theories/ShuffleClip.v
theories/ShuffleClipped.v
theories/ShuffleLaws.v
theories/ShuffleProps.v
theories/PartSpec.v
theories/PartProofs.v
theories/PartClip.v
theories/PartProps.v
theories/Traits.v
theories/TraitsSpec.v
theories/TraitsProofs.v
theories/TraitsProps.v
theories/CutSpec.v
theories/CutProofs.v
theories/CutTopo.v
theories/CutHalves.v
theories/CutProps.v
theories/UnitSpec.v
theories/UnitProofs.v
theories/UnitProps.v
theories/TurnSpec.v
theories/TurnProofs.v
theories/TurnProps.v
theories/AgainSpec.v
theories/AgainProofs.v
theories/AgainProps.v
theories/ShuffleFileProps.v
theories/ExportSpec.v
theories/ExportProofs.v
theories/ExportProps.v
theories/PrintSpec.v
theories/PrintProps.v
theories/MessageSpec.v
theories/MessageProps.v
