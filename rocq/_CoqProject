-Q theories Verif
theories/Py.v
theories/ListLemmas.v
theories/BitsModel.v
theories/BitsSpec.v
theories/BitsProofs.v
theories/BitsProps.v
theories/QueueModel.v
theories/QueueSpec.v
theories/QueueProofs.v
theories/QueueProps.v
theories/SPModel.v
theories/SPSpec.v
theories/SPProofs.v
theories/SPProps.v
theories/InterleaveModel.v
theories/InterleaveSpec.v
theories/InterleaveProofs.v
theories/DeinterleaveProofs.v
theories/BlaumModel.v
theories/BlaumProofs.v
theories/InterleaveProps.v
theories/FlipModel.v
theories/FlipSpec.v
theories/FlipProofs.v
theories/FlipProofs2.v
theories/FlipProps.v
theories/PacketModel.v
theories/PacketSpec.v
theories/PredictProofs.v
theories/PacketProofs.v
theories/PacketProps.v
theories/RandomModel.v
theories/RandomSpec.v
theories/RandomProofs.v
theories/RandomFloat.v
theories/RandomProps.v
theories/JsonModel.v
theories/JsonProofs.v
theories/JsonProps.v
theories/InstModel.v
theories/InstSpec.v
theories/InstProofs.v
theories/InstProps.v
theories/MetaModel.v
theories/MetaSpec.v
theories/MetaProofs.v
theories/MetaProps.v
theories/RecModel.v
theories/RecSpec.v
theories/RecProofs.v
theories/RecProofs2.v
theories/RecProofs3.v
theories/RemoveProofs.v
theories/RecProofs4.v
theories/RecProps.v
theories/IoModel.v
theories/IoSpec.v
theories/IoProofs.v
theories/IoProps.v
theories/ProbModel.v
theories/ProbProps.v
theories/QualityModel.v
theories/QualityProps.v
theories/BuilderModel.v
theories/BuilderSpec.v
theories/BuilderProofs.v
theories/ConstraintProps.v
theories/BuilderProps.v
theories/HuffmanModel.v
theories/HuffmanSpec.v
theories/HuffmanProofs.v
theories/HuffmanProps.v
theories/CompressModel.v
theories/CompressSpec.v
theories/CompressProps.v
theories/OverlapProps.v
theories/DecodeProps.v
theories/ReaderModel.v
theories/ReaderSpec.v
theories/ReaderProofs.v
theories/ReaderProofs2.v
theories/ReaderProps.v
theories/ProgressModel.v
theories/ProgressProps.v
theories/GraphModel.v
theories/GraphSpec.v
theories/GraphProofs.v
theories/CfgModel.v
theories/RemoveCondProofs.v
theories/CfgProofs.v
theories/CfgProofs2.v
theories/CfgProofs3.v
theories/CfgProps.v
theories/CfgProofs4.v
theories/CfgProofs5.v
theories/CfgFlowProps.v
theories/CfgProofs6.v
theories/CfgProofs7.v
theories/CfgEdgeProps.v
theories/CfgReachProps.v
theories/CfgCountModel.v
theories/CfgCountProps.v
theories/LinkModel.v
theories/LinkProps.v
theories/DomModel.v
theories/DomTheory.v
theories/DomDfs.v
theories/DomProofs.v
theories/DomProofs2.v
theories/DomProofs3.v
theories/SsaModel.v
theories/FrontierProofs.v
theories/DomProps.v
theories/SsaSpec.v
theories/SsaProofs.v
theories/SsaProofs2.v
theories/SsaProofs3.v
theories/SsaProofs4.v
theories/SsaProofs5.v
theories/SsaProofs6.v
theories/SsaProofs7.v
theories/SsaProofs8.v
theories/SsaProps.v
theories/RulesModel.v
theories/RulesProofs.v
theories/RulesProofs2.v
theories/RulesProofs3.v
theories/RulesProofs4.v
theories/RulesProofs5.v
theories/RulesProofs6.v
theories/RulesProofs7.v
theories/RulesProps.v
theories/RulesSpec.v
theories/MiscModel.v
theories/MiscProps.v
theories/ReportModel.v
theories/ReportSpec.v
theories/ReportProofs.v
theories/ReportProps.v
theories/DarmModel.v
theories/DarmProps.v
theories/StoreSpec.v
theories/StoreModel.v
theories/StoreProofs.v
theories/StoreProps.v
theories/StorePacketsProps.v
theories/SsaTotalProofs.v
theories/SkipProofs.v
theories/SkipProofs2.v
theories/SkipProofs3.v
theories/SkipProofs4.v
theories/SkipProps.v
theories/FlowModel.v
theories/BuiltProofs.v
theories/LadderProofs.v
theories/LadderProofs2.v
theories/FlowProps.v
theories/RangeProofs.v
theories/FlowWordModel.v
theories/FlowWordProps.v
theories/BlaumProps.v
theories/SeenProps.v
theories/ValueProofs.v
theories/FlowValueProps.v
theories/InitialModel.v
theories/InitialProps.v
theories/RunModel.v
theories/RunProps.v
theories/SiftSpec.v
theories/SiftProps.v
theories/RealModel.v
theories/RealProps.v
theories/WholeModel.v
theories/WholeProps.v
theories/DepthModel.v
theories/DepthProps.v
theories/OutcomeProps.v
theories/EndProps.v
theories/DarmStorageProps.v
theories/StackProps.v
theories/ReachProps.v
theories/NeighbourProps.v
theories/SharesProps.v
theories/MetricsModel.v
theories/MetricsProps.v
theories/OrderProofs.v
theories/OrderProps.v
theories/VerdictProps.v
theories/DistanceProps.v
theories/DotModel.v
theories/DotProps.v
theories/ScriptModel.v
theories/ScriptProps.v
theories/CfgUnknownProps.v
theories/BurstProofs.v
theories/BurstProps.v
theories/BurstCandProps.v
theories/DomExactProps.v
theories/DistanceFullProps.v
theories/DistanceAnswerProps.v
theories/CountExactProps.v
theories/OnePassProps.v
theories/PassesProps.v
theories/DistanceBoundProps.v
theories/JsonCutProps.v
theories/IoAgainProps.v
theories/ReaderCutProps.v
theories/RuleOrderProps.v
theories/ElfCutProps.v
theories/IoAnyProps.v
theories/LossOrderProps.v
theories/DiscardProps.v
theories/RuleDiscardProps.v
theories/HuffmanMoveProps.v
theories/QualityMoreProps.v
theories/CfgCallProps.v
theories/CfgBlockProps.v
theories/NearModel.v
theories/NearProps.v
theories/ShrinkProps.v
theories/DotMoreModel.v
theories/DotMoreProps.v
theories/HuffmanBoundProps.v
theories/ElfCutExactProps.v
theories/UnionBoundProps.v
theories/DrawModel.v
theories/DrawProps.v
theories/FlowSignProps.v
theories/IoSizeProps.v
