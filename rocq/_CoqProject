-Q theories Verif
theories/MatchModel.v
theories/MatchSpec.v
theories/MatchProofs.v
theories/MatchProps.v
theories/FieldMatchersModel.v
theories/FieldMatchersSpec.v
theories/FieldMatchersProofs.v
theories/FieldMatchersProps.v
theories/FieldModel.v
theories/FieldSpec.v
theories/FieldProofs.v
theories/FieldProofs2.v
theories/FieldProofs3.v
theories/FieldProps.v
theories/MessageModel.v
theories/MessageSpec.v
theories/MessageProofs.v
theories/MessageProofs2.v
theories/MessageProofs3.v
theories/MessageProps.v
theories/HandlerModel.v
theories/HandlerSpec.v
theories/HandlerProofs.v
theories/IndexedProofs.v
theories/HandlerProofs2.v
theories/HandlerProps.v
theories/LookupModel.v
theories/LookupSpec.v
theories/LookupProofs.v
theories/LookupProofs2.v
theories/LookupProofs3.v
theories/LookupProofs4.v
theories/LookupProps.v
theories/FlowModel.v
theories/FlowSpec.v
theories/FlowProofs.v
theories/FlowProofs2.v
theories/FlowProofs3.v
theories/FlowProofs4.v
theories/FlowProofs5.v
theories/FlowProps.v
theories/SeqModel.v
theories/SeqSpec.v
theories/SeqProofs.v
theories/SeqProofs2.v
theories/SeqProps.v
theories/IrqModel.v
theories/IrqSpec.v
theories/IrqProofs.v
theories/IrqProofs2.v
theories/IrqProofs3.v
theories/IrqProofs4.v
theories/IrqProps.v
theories/MipiModel.v
theories/MipiSpec.v
theories/MipiProofs.v
theories/MipiProofs2.v
theories/MipiProofs3.v
theories/MipiProofs4.v
theories/MipiProps.v
theories/CatalogModel.v
theories/CatalogSpec.v
theories/CatalogProofs.v
theories/CatalogProofs2.v
theories/CatalogProofs3.v
theories/CatalogProofs4.v
theories/CatalogProps.v
theories/NexusModel.v
theories/NexusSpec.v
theories/NexusProofs.v
theories/NexusProofs2.v
theories/NexusProps.v
theories/LogModel.v
theories/LogSpec.v
theories/LogProofs.v
theories/LogProofs2.v
theories/LogProofs3.v
theories/LogProps.v
theories/DescribeModel.v
theories/DescribeSpec.v
theories/DescribeProofs.v
theories/DescribeProofs2.v
theories/DescribeProps.v
theories/GenModel.v
theories/GenSpec.v
theories/GenProofs.v
theories/GenProofs2.v
theories/GenProofs3.v
theories/GenProps.v
theories/ReleaseModel.v
theories/ReleaseSpec.v
theories/ReleaseProofs.v
theories/ReleaseProps.v
theories/ShowModel.v
theories/ShowSpec.v
theories/ShowProofs.v
theories/ShowProps.v
theories/SymbolModel.v
theories/SymbolSpec.v
theories/SymbolProofs.v
theories/SymbolProofs2.v
theories/SymbolProofs3.v
theories/SymbolProofs4.v
theories/SymbolProofs5.v
theories/SymbolProofs6.v
theories/SymbolProps.v
theories/AccessModel.v
theories/AccessSpec.v
theories/AccessProofs.v
theories/AccessProofs2.v
theories/AccessProofs3.v
theories/AccessProofs4.v
theories/AccessProofs5.v
theories/AccessProps.v
theories/ChainModel.v
theories/ChainSpec.v
theories/ChainProofs.v
theories/ChainProofs2.v
theories/ChainProofs3.v
theories/ChainProps.v
theories/SourceModel.v
theories/SourceSpec.v
theories/SourceProofs.v
theories/SourceProofs2.v
theories/SourceProps.v
theories/ConcModel.v
theories/ConcSpec.v
theories/ConcProofs.v
theories/ConcProps.v
theories/ProjectModel.v
theories/ProjectSpec.v
theories/ProjectProofs.v
theories/ProjectProofs2.v
theories/ProjectProofs3.v
theories/ProjectProofs4.v
theories/ProjectProofs5.v
theories/ProjectProofs6.v
theories/ProjectProofs7.v
theories/ProjectProps.v
theories/DispatchModel.v
theories/DispatchSpec.v
theories/DispatchProofs.v
theories/DispatchProofs2.v
theories/DispatchProofs3.v
theories/DispatchProofs4.v
theories/DispatchProps.v
theories/OutputModel.v
theories/OutputSpec.v
theories/OutputProofs.v
theories/OutputProofs2.v
theories/OutputProofs3.v
theories/OutputProofs4.v
theories/OutputProps.v
theories/RunModel.v
theories/RunSpec.v
theories/RunProofs.v
theories/RunProofs2.v
theories/RunProofs3.v
theories/RunProps.v
theories/BakedModel.v
theories/BakedSpec.v
theories/BakedProofs.v
theories/BakedProofs2.v
theories/BakedProofs3.v
theories/BakedProps.v
theories/CallModel.v
theories/CallSpec.v
theories/CallProofs.v
theories/CallProofs2.v
theories/CallProofs3.v
theories/CallProps.v
theories/WideSpec.v
theories/WideProofs.v
theories/WideProofs2.v
theories/WideProps.v
theories/ExactSpec.v
theories/ExactProps.v
theories/IrqHistoryProps.v
theories/StableSpec.v
theories/StableProofs.v
theories/StableProps.v
theories/MoreExactProps.v
theories/ConfigModel.v
theories/ConfigSpec.v
theories/ConfigProofs.v
theories/ConfigProps.v
theories/CallTurnsProps.v
theories/SummaryModel.v
theories/SummarySpec.v
theories/SummaryProofs.v
theories/SummaryProofs2.v
theories/SummaryProps.v
theories/PolicyModel.v
theories/PolicySpec.v
theories/PolicyProps.v
theories/DiagnoseModel.v
theories/DiagnoseSpec.v
theories/DiagnoseProps.v
theories/SendModel.v
theories/SendSpec.v
theories/SendProofs.v
theories/SendProps.v
theories/DecodeModel.v
theories/DecodeSpec.v
theories/DecodeProofs.v
theories/DecodeProps.v
theories/WrapModel.v
theories/WrapSpec.v
theories/WrapProofs.v
theories/WrapProps.v
theories/GraphModel.v
theories/GraphSpec.v
theories/GraphProofs.v
theories/GraphProps.v
theories/ForgetProps.v
theories/OrderSpec.v
theories/OrderProofs.v
theories/OrderProps.v
theories/ReproduceSpec.v
theories/ReproduceProofs.v
theories/ReproduceProps.v
theories/SubscriptModel.v
theories/SubscriptSpec.v
theories/SubscriptProofs.v
theories/SubscriptProps.v
theories/FieldOpsModel.v
theories/FieldOpsSpec.v
theories/FieldOpsProofs.v
theories/FieldOpsProps.v
theories/MsgEnvModel.v
theories/MsgEnvSpec.v
theories/MsgEnvProofs.v
theories/MsgEnvProps.v
theories/PlaceModel.v
theories/PlaceSpec.v
theories/PlaceProofs.v
theories/PlaceProps.v
theories/JsonModel.v
theories/JsonSpec.v
theories/JsonProofs.v
theories/JsonProofs2.v
theories/JsonProofs3.v
theories/JsonProofs4.v
theories/JsonProps.v
theories/RelBuildModel.v
theories/RelBuildSpec.v
theories/RelBuildProofs.v
theories/RelBuildProps.v
theories/FileModel.v
theories/FileSpec.v
theories/FileProps.v
theories/CutProps.v
theories/ManyModel.v
theories/ManySpec.v
theories/ManyProofs.v
theories/ManyProofs2.v
theories/ManyProps.v
theories/UpdateModel.v
theories/UpdateSpec.v
theories/UpdateProps.v
theories/BenchModel.v
theories/BenchSpec.v
theories/BenchProofs.v
theories/BenchProofs2.v
theories/BenchProps.v
theories/CycleModel.v
theories/CycleSpec.v
theories/CycleProps.v
theories/CasesProps.v
theories/CasesLookupProps.v
theories/CasesTextProps.v
theories/CasesRunProps.v
theories/CasesLogProps.v
theories/CasesCallProps.v
theories/CasesMoreProps.v
theories/CasesNexusProps.v
theories/CasesBuildProps.v
theories/CasesFilesProps.v
theories/CasesLastProps.v
