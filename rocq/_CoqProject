-Q theories Verif
theories/AnnotateModel.v
theories/AnnotateProofs.v
theories/AnnotateProps.v
theories/ArcProofs.v
theories/AverageProofs.v
theories/Base.v
theories/BaseProofs.v
theories/BcApplyProofs.v
theories/BcModel.v
theories/BcProofs.v
theories/BcProps.v
theories/BcReturnsProofs.v
theories/BcUpdaterProofs.v
theories/BiotModel.v
theories/BiotProofs.v
theories/BiotProps.v
theories/BlockFormAddProofs.v
theories/BlockFormModel.v
theories/BlockFormPermProofs.v
theories/BlockFormProofs.v
theories/BlockFormProps.v
theories/BlockUtilsModel.v
theories/BlockUtilsProofs.v
theories/BlockUtilsProps.v
theories/BoxModel.v
theories/BoxProofs.v
theories/BoxProps.v
theories/BranchModel.v
theories/BranchProofs.v
theories/BranchProps.v
theories/BrokenModel.v
theories/BrokenProofs.v
theories/BrokenProps.v
theories/CacheModel.v
theories/CacheProofs.v
theories/CacheProps.v
theories/CalcModel.v
theories/CalcProofs.v
theories/CalcProps.v
theories/CheckModel.v
theories/CheckProofs.v
theories/CheckProps.v
theories/CoarseModel.v
theories/CoarseProofs.v
theories/CoarseProps.v
theories/CollapseHaltProofs.v
theories/CollapseProofs.v
theories/CollapseTermProofs.v
theories/ConnectModel.v
theories/ConnectProofs.v
theories/ConnectProps.v
theories/ContextModel.v
theories/ContextProps.v
theories/ControlModel.v
theories/ControlProofs.v
theories/ControlProps.v
theories/ConvertActionProofs.v
theories/ConvertModel.v
theories/ConvertProofs.v
theories/ConvertProps.v
theories/CoupledModel.v
theories/CoupledProofs.v
theories/CoupledProps.v
theories/CrossGridModel.v
theories/CrossGridProofs.v
theories/CrossGridProps.v
theories/CsrModel.v
theories/CsrProofs.v
theories/CsrProps.v
theories/CurveModel.v
theories/CurveProofs.v
theories/CurveProps.v
theories/DaqModel.v
theories/DaqProps.v
theories/DeepModel.v
theories/DeepProofs.v
theories/DeepProps.v
theories/DemoModel.v
theories/DemoProofs.v
theories/DemoProps.v
theories/DepModel.v
theories/DepProofs.v
theories/DepProps.v
theories/DiskModel.v
theories/DiskProofs.v
theories/DiskProps.v
theories/ElementModel.v
theories/ElementProofs.v
theories/ElementProps.v
theories/EmapModel.v
theories/EmapProofs.v
theories/EmapProps.v
theories/EmbedModel.v
theories/EmbedProofs.v
theories/EmbedProps.v
theories/EntityModel.v
theories/EntityProofs.v
theories/EntityProps.v
theories/EvalModel.v
theories/EvalProofs.v
theories/EvalProps.v
theories/ExtensionModel.v
theories/ExtensionProofs.v
theories/ExtensionProps.v
theories/FacetModel.v
theories/FacetProofs.v
theories/FacetProps.v
theories/FemEvalModel.v
theories/FemEvalProofs.v
theories/FemEvalProps.v
theories/FeopModel.v
theories/FeopProofs.v
theories/FeopProps.v
theories/FillModel.v
theories/FillProofs.v
theories/FillProps.v
theories/FluxProps.v
theories/FunctionModel.v
theories/FunctionProofs.v
theories/FunctionProps.v
theories/Gauss3Proofs.v
theories/GaussProofs.v
theories/GeomModel.v
theories/GeomProofs.v
theories/GeomProps.v
theories/GetDimsProofs.v
theories/GlueModel.v
theories/GlueProofs.v
theories/GlueProps.v
theories/GmshGenModel.v
theories/GmshGenProofs.v
theories/GmshGenProps.v
theories/GmshModel.v
theories/GmshProofs.v
theories/GmshProps.v
theories/H5LoadModel.v
theories/H5LoadProofs.v
theories/H5LoadProps.v
theories/HalvesModel.v
theories/HalvesProofs.v
theories/HalvesProps.v
theories/HarmQuadModel.v
theories/HarmQuadProofs.v
theories/HarmQuadProps.v
theories/HeatModel.v
theories/HeatProofs.v
theories/HeatProps.v
theories/HistoryModel.v
theories/HistoryProofs.v
theories/HistoryProps.v
theories/HsModel.v
theories/HsProofs.v
theories/HsProps.v
theories/ImmersedModel.v
theories/ImmersedProofs.v
theories/ImmersedProps.v
theories/InjectModel.v
theories/InjectProofs.v
theories/InjectProps.v
theories/InnerModel.v
theories/InnerProofs.v
theories/InnerProps.v
theories/IterLoopProofs.v
theories/IterModel.v
theories/IterProofs.v
theories/IterProps.v
theories/IterSoundProofs.v
theories/JacModel.v
theories/JacProofs.v
theories/JacProps.v
theories/JacSemProofs.v
theories/KeysModel.v
theories/KeysProps.v
theories/KindsProofs.v
theories/KrylovModel.v
theories/KrylovProofs.v
theories/KrylovProps.v
theories/KspArgsModel.v
theories/KspArgsProofs.v
theories/KspArgsProps.v
theories/LayerModel.v
theories/LayerProofs.v
theories/LayerProps.v
theories/LineModel.v
theories/LineProofs.v
theories/LineProps.v
theories/ListUtilsModel.v
theories/ListUtilsProofs.v
theories/ListUtilsProps.v
theories/MakeMeshModel.v
theories/MakeMeshProps.v
theories/Mat.v
theories/MatProofs.v
theories/MeanModel.v
theories/MeanProofs.v
theories/MeanProps.v
theories/MeasureModel.v
theories/MeasureProofs.v
theories/MeasureProps.v
theories/MeshFileModel.v
theories/MeshFileProofs.v
theories/MeshFileProps.v
theories/Mms2Model.v
theories/Mms2Proofs.v
theories/Mms2Props.v
theories/Mms3Model.v
theories/Mms3Proofs.v
theories/Mms3Props.v
theories/Mms4Model.v
theories/Mms4Props.v
theories/Mms5Model.v
theories/Mms5Proofs.v
theories/Mms5Props.v
theories/MmsModel.v
theories/MmsProofs.v
theories/MmsProps.v
theories/MortarModel.v
theories/MortarProofs.v
theories/MortarProps.v
theories/NestPcModel.v
theories/NestPcProofs.v
theories/NestPcProps.v
theories/NewtonModel.v
theories/NewtonProofs.v
theories/NewtonProps.v
theories/NormalModel.v
theories/NormalProofs.v
theories/NormalProps.v
theories/NullspaceModel.v
theories/NullspaceProofs.v
theories/NullspaceProps.v
theories/OuterModel.v
theories/OuterProps.v
theories/OverlapModel.v
theories/OverlapProofs.v
theories/OverlapProps.v
theories/PatchModel.v
theories/PatchProofs.v
theories/PatchProps.v
theories/PlotModel.v
theories/PlotProofs.v
theories/PlotProps.v
theories/PrecModel.v
theories/PrecProps.v
theories/PrintProofs.v
theories/QuadTestModel.v
theories/QuadTestProofs.v
theories/QuadTestProps.v
theories/QuarterModel.v
theories/QuarterProofs.v
theories/QuarterProps.v
theories/RLin.v
theories/ReducedModel.v
theories/ReducedProofs.v
theories/ReducedProps.v
theories/RefineCentroidProofs.v
theories/RefineModel.v
theories/RefineProofs.v
theories/RefineProps.v
theories/RefineReturnsProofs.v
theories/RenderModel.v
theories/RenderProofs.v
theories/RenderProps.v
theories/RestrictModel.v
theories/RestrictProofs.v
theories/RestrictProps.v
theories/ReuseModel.v
theories/ReuseProofs.v
theories/ReuseProps.v
theories/SegmentModel.v
theories/SegmentProofs.v
theories/SegmentProps.v
theories/SerialModel.v
theories/SerialProofs.v
theories/SerialProps.v
theories/ShapeModel.v
theories/ShapeProofs.v
theories/ShapeProps.v
theories/SkeletonModel.v
theories/SkeletonProofs.v
theories/SkeletonProps.v
theories/SnesModel.v
theories/SnesProofs.v
theories/SnesProps.v
theories/SolveProofs.v
theories/SpaceOpModel.v
theories/SpaceOpProofs.v
theories/SpaceOpProps.v
theories/StripModel.v
theories/StripProofs.v
theories/StripProps.v
theories/SystemModel.v
theories/SystemProofs.v
theories/SystemProps.v
theories/TangentModel.v
theories/TangentProofs.v
theories/TangentProps.v
theories/TikzModel.v
theories/TikzProofs.v
theories/TikzProps.v
theories/Trace31Model.v
theories/Trace31Proofs.v
theories/Trace31Props.v
theories/TransferProofs.v
theories/TransformModel.v
theories/TransformProofs.v
theories/TransformProps.v
theories/TransposeProps.v
theories/UflModel.v
theories/UflProofs.v
theories/UnionModel.v
theories/UnionProofs.v
theories/UnionProps.v
theories/VectorizedModel.v
theories/VectorizedProofs.v
theories/VectorizedProps.v
theories/VesselModel.v
theories/VesselProofs.v
theories/VesselProps.v
theories/ViewModel.v
theories/ViewProofs.v
theories/ViewProps.v
theories/WalkProofs.v
theories/WindModel.v
theories/WindProofs.v
theories/WindProps.v
theories/WireModel.v
theories/WireProofs.v
theories/WireProps.v
theories/ZerosModel.v
theories/ZerosProofs.v
theories/ZerosProps.v
theories/ZigzagModel.v
theories/ZigzagProofs.v
theories/ZigzagProps.v
