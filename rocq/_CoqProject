-Q theories Verif
theories/AffineModel.v
theories/AffineProofs.v
theories/AffineProps.v
theories/AlgorithmsModel.v
theories/AlgorithmsProofs.v
theories/AlgorithmsProps.v
theories/AlgorithmsSpec.v
theories/AngleModel.v
theories/AngleProps.v
theories/AsMeshesBounds.v
theories/AsMeshesFormat.v
theories/AsMeshesModel.v
theories/AsMeshesPosition.v
theories/AsMeshesProofs.v
theories/AsMeshesProps.v
theories/AsMeshesSpec.v
theories/BatchHistory.v
theories/BatchModel.v
theories/BatchProofs.v
theories/BatchProps.v
theories/BatchSpec.v
theories/BatchValid.v
theories/BehaviorExact.v
theories/BehaviorMeaning.v
theories/BehaviorModel.v
theories/BehaviorOrder.v
theories/BehaviorProps.v
theories/BehaviorRange.v
theories/BehaviorRun.v
theories/BehaviorSpec.v
theories/BehaviorTree.v
theories/BrushModel.v
theories/BrushProofs.v
theories/BrushProps.v
theories/BrushSpec.v
theories/BytesLemmas.v
theories/BytesModel.v
theories/ChainModel.v
theories/ChainProps.v
theories/ChainSpec.v
theories/CircleModel.v
theories/CircleProofs.v
theories/CircleProps.v
theories/CircleSpec.v
theories/ColorModel.v
theories/ColorProps.v
theories/ColorRoundProps.v
theories/ConstrainModel.v
theories/ConstrainProofs.v
theories/ConstrainProps.v
theories/ConvexHullModel.v
theories/ConvexHullProofs.v
theories/ConvexHullProps.v
theories/CoverageExact.v
theories/CoverageFloat.v
theories/CoverageProofs.v
theories/CoverageProps.v
theories/CowModel.v
theories/CowProofs.v
theories/CowProps.v
theories/CowSpec.v
theories/DistanceModel.v
theories/DistanceProofs.v
theories/DistanceProps.v
theories/DistanceSpec.v
theories/DrawFinishedProps.v
theories/DrawSpecModel.v
theories/DrawSpecProofs.v
theories/DrawSpecProps.v
theories/DrawSpecSpec.v
theories/DurationModel.v
theories/DurationProofs.v
theories/DurationProps.v
theories/DurationSpec.v
theories/EasingBezier.v
theories/EasingCurve.v
theories/EasingExact.v
theories/EasingLinear.v
theories/EasingModel.v
theories/EasingProps.v
theories/EasingReal.v
theories/EasingSpec.v
theories/EasingSteps.v
theories/EasingTable.v
theories/ExtruderGeometryLists.v
theories/ExtruderGeometryModel.v
theories/ExtruderGeometryProofs.v
theories/ExtruderGeometryProps.v
theories/ExtruderGeometrySpec.v
theories/F32.v
theories/F32Lemmas.v
theories/F32Round.v
theories/F64.v
theories/F64Lemmas.v
theories/FamilyModel.v
theories/FamilyProps.v
theories/FamilySpec.v
theories/FlipExact.v
theories/FlipFloat.v
theories/FlipFloatSound.v
theories/FlipModel.v
theories/FlipProofs.v
theories/FlipProps.v
theories/FlipSound.v
theories/FromMeshProps.v
theories/FromMutableProps.v
theories/GeomBox.v
theories/GeomExact.v
theories/GeomLerp.v
theories/GeomMeet.v
theories/GeomModel.v
theories/GeomOps.v
theories/GeomProps.v
theories/GeomReal.v
theories/GeomSpec.v
theories/IntersectsModel.v
theories/IntersectsProps.v
theories/IpsModel.v
theories/IpsProofs.v
theories/IpsProps.v
theories/IpsSpec.v
theories/JoinedModel.v
theories/JoinedProofs.v
theories/JoinedProps.v
theories/JoinedSpec.v
theories/LegacyModel.v
theories/LegacyProps.v
theories/LegacySpec.v
theories/LegacyTriangleModel.v
theories/LegacyTriangleProps.v
theories/LerpProps.v
theories/MarginModel.v
theories/MarginProps.v
theories/MarginSpec.v
theories/MeshCoding.v
theories/MeshFormatModel.v
theories/MeshFormatProps.v
theories/MeshModel.v
theories/MeshProofs.v
theories/MeshProps.v
theories/MeshSpec.v
theories/MeshViewModel.v
theories/MeshViewProps.v
theories/MeshViewSpec.v
theories/ModelerModel.v
theories/ModelerProofs.v
theories/ModelerProps.v
theories/ModelerSpec.v
theories/MutableMeshModel.v
theories/MutableMeshProofs.v
theories/MutableMeshProps.v
theories/MutableMeshSpec.v
theories/NumLaws.v
theories/NumModel.v
theories/OutlineSearchModel.v
theories/OutlineSearchProps.v
theories/OutlineSearchSpec.v
theories/PackModel.v
theories/PackProps.v
theories/PackQuantProps.v
theories/PartitionModel.v
theories/PartitionProps.v
theories/PartitionedMeshCross.v
theories/PartitionedMeshExact.v
theories/PartitionedMeshIndex.v
theories/PartitionedMeshModel.v
theories/PartitionedMeshProps.v
theories/PartitionedMeshQueryProps.v
theories/PartitionedMeshSpec.v
theories/PolylineExact.v
theories/PolylineModel.v
theories/PolylineProofs.v
theories/PolylineProps.v
theories/PolylineSpec.v
theories/RTreeFloat.v
theories/RTreeModel.v
theories/RTreeProofs.v
theories/RTreeProps.v
theories/RTreeSpec.v
theories/RoundedHull.v
theories/RoundedModel.v
theories/RoundedProofs.v
theories/RoundedProps.v
theories/RoundedSpec.v
theories/ShaderUnpackExact.v
theories/ShaderUnpackModel.v
theories/ShaderUnpackProps.v
theories/ShaderUnpackSpec.v
theories/SimplifyExact.v
theories/SimplifyModel.v
theories/SimplifyProofs.v
theories/SimplifyProps.v
theories/SimplifySpec.v
theories/StrokeLabelProps.v
theories/StrokeModel.v
theories/StrokeOutlineModel.v
theories/StrokeOutlineProps.v
theories/StrokeOutlineSpec.v
theories/StrokePackingProps.v
theories/StrokeProofs.v
theories/StrokeProps.v
theories/StrokeSpec.v
theories/StrokeVertexModel.v
theories/StrokeVertexProofs.v
theories/StrokeVertexProps.v
theories/StrokeVertexSpec.v
theories/TipAhead.v
theories/TipCapModel.v
theories/TipCapProofs.v
theories/TipCapProps.v
theories/TipCapSpec.v
theories/TipExtruderGeometry.v
theories/TipExtruderHistory.v
theories/TipExtruderModel.v
theories/TipExtruderProofs.v
theories/TipExtruderProps.v
theories/TipExtruderSpec.v
theories/TipFinal.v
theories/TipIdle.v
theories/TipModel.v
theories/TipOrder.v
theories/TipParticleSpec.v
theories/TipParticles.v
theories/TipProps.v
theories/TipRun.v
theories/TipSettled.v
theories/TipShapeModel.v
theories/TipShapeProofs.v
theories/TipShapeProps.v
theories/TipShapeSpec.v
theories/TipSpec.v
theories/TipStable.v
theories/TurnModel.v
theories/TurnProps.v
theories/TurnSpec.v
theories/UriModel.v
theories/UriProofs.v
theories/UriProps.v
theories/UriSpec.v
