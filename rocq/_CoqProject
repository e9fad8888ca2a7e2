-Q theories Verif
theories/LangModel.v
theories/LangProofs.v
theories/ConcModel.v
theories/ConcProofs.v
theories/IndexModel.v
theories/IndexSpec.v
theories/IndexProofs.v
theories/IndexProps.v
theories/LoopModel.v
theories/LoopSpec.v
theories/LoopProofs.v
theories/ConcProps.v
theories/PolicyModel.v
theories/LocalModel.v
theories/LocalSpec.v
theories/LocalProofs.v
theories/ExampleMem.v
theories/LocalProps.v
theories/IntsModel.v
theories/ArithModel.v
theories/ArithSpec.v
theories/ArithProofs.v
theories/ArithProps.v
theories/AccumModel.v
theories/AggModel.v
theories/AggSpec.v
theories/AggProofs.v
theories/AggProps.v
theories/AccumProofs.v
theories/StatProofs.v
theories/StatProps.v
theories/AccumProps.v
theories/CountModel.v
theories/CountSpec.v
theories/FrozenProofs.v
theories/CountProofs.v
theories/CountProps.v
theories/QueueModel.v
theories/QueueSpec.v
theories/QueueProofs.v
theories/QueueProps.v
theories/PoolModel.v
theories/PoolSpec.v
theories/PoolProofs.v
theories/PoolLive.v
theories/PoolSim.v
theories/PoolProps.v
theories/CoreModel.v
theories/CoreSpec.v
theories/CoreProofs.v
theories/CoreProps.v
theories/CopyModel.v
theories/CopySpec.v
theories/MoveProofs.v
theories/CopyProofs.v
theories/OffsetProofs.v
theories/CompressProofs.v
theories/CopyProps.v
theories/CastModel.v
theories/CastProps.v
theories/ConvolveModel.v
theories/ConvolveSpec.v
theories/ConvolveProofs.v
theories/ConvolveProps.v
theories/GradientModel.v
theories/GradientSpec.v
theories/GradientProofs.v
theories/GradientProps.v
theories/SymbolModel.v
theories/SymbolSpec.v
theories/SymbolProofs.v
theories/SymbolProps.v
theories/StringModel.v
theories/StringSpec.v
theories/StringProofs.v
theories/StringProps.v
theories/FlagModel.v
theories/FlagSpec.v
theories/FlagProofs.v
theories/FlagProps.v
theories/ResultTypeProps.v
theories/GuardModel.v
theories/GuardSpec.v
theories/GuardProps.v
theories/MaskedModel.v
theories/MaskedSpec.v
theories/MaskedProps.v
theories/AstModel.v
theories/IoModel.v
theories/ExecModel.v
theories/ExecSpec.v
theories/IoSpec.v
theories/IoProofs.v
theories/IoProps.v
theories/ExecProofs.v
theories/ExecProps.v
theories/IdentifyModel.v
theories/IdentifySpec.v
theories/IdentifyProofs.v
theories/IdentifyProps.v
theories/AnnotateModel.v
theories/AnnotateSpec.v
theories/AnnotateProofs.v
theories/AnnotateProps.v
theories/InterpretModel.v
theories/InterpretSpec.v
theories/InterpretProofs.v
theories/InterpretProps.v
theories/OptimizeModel.v
theories/OptimizeSpec.v
theories/OptimizeProofs.v
theories/OptimizeProps.v
theories/VectorModel.v
theories/VectorSpec.v
theories/VectorProofs.v
theories/VectorExactSpec.v
theories/VectorExact.v
theories/VectorProps.v
theories/IeeeSpec.v
theories/IeeeProofs.v
theories/FloatModel.v
theories/FloatSpec.v
theories/FloatProofs.v
theories/FloatProps.v
theories/MathModel.v
theories/MathSpec.v
theories/MathProofs.v
theories/MathProps.v
theories/ThreadModel.v
theories/ThreadSpec.v
theories/ThreadProofs.v
theories/ThreadRunProofs.v
theories/ThreadAcceptProofs.v
theories/ThreadRefuseProofs.v
theories/ThreadProps.v
theories/XmlModel.v
theories/DecimalModel.v
theories/ScriptModel.v
theories/ScriptSpec.v
theories/XmlProofs.v
theories/ScriptProofs.v
theories/ScriptProps.v
theories/DecimalSpec.v
theories/RoundProofs.v
theories/DigitProofs.v
theories/SixProofs.v
theories/DecimalProofs.v
theories/DecimalProps.v
theories/FeatureModel.v
theories/FeatureSpec.v
theories/FeatureProofs.v
theories/FeatureProps.v
theories/RasterModel.v
theories/RasterSpec.v
theories/RasterProofs.v
theories/RasterCells.v
theories/RasterProps.v
theories/FileModel.v
theories/FileSpec.v
theories/FileProps.v
theories/StoreModel.v
theories/StoreSpec.v
theories/StoreProps.v
theories/DriverModel.v
theories/DriverSpec.v
theories/DriverProps.v
theories/CommandModel.v
theories/CommandSpec.v
theories/CommandProps.v
theories/CompileModel.v
theories/CompileSpec.v
theories/CompileProps.v
theories/FieldModel.v
theories/FieldSpec.v
theories/FieldProps.v
theories/ToolModel.v
theories/ToolSpec.v
theories/ToolProps.v
theories/FlowModel.v
theories/FlowSpec.v
theories/FlowProps.v
theories/PrintModel.v
theories/PrintSpec.v
theories/PrintProofs.v
theories/PrintUnique.v
theories/PrintProps.v
theories/TreeGraphModel.v
theories/TreeGraphSpec.v
theories/TreeGraphProofs.v
theories/TreeGraphProps.v
theories/RefModel.v
theories/RefSpec.v
theories/RefProofs.v
theories/RefProps.v
theories/ErrorProofs.v
theories/ErrorProps.v
theories/ClientModel.v
theories/ClientSpec.v
theories/ClientProofs.v
theories/ClientProps.v
theories/MessageModel.v
theories/MessageSpec.v
theories/MessageProps.v
theories/CoardsModel.v
theories/CoardsSpec.v
theories/CoardsProofs.v
theories/CoardsProps.v
theories/HandleModel.v
theories/HandleSpec.v
theories/HandleProofs.v
theories/HandleProps.v
theories/NumpyModel.v
theories/NumpySpec.v
theories/NumpyProofs.v
theories/NumpyProps.v
theories/UncertModel.v
theories/UncertSpec.v
theories/UncertProofs.v
theories/UncertProps.v
theories/FunctionModel.v
theories/FunctionSpec.v
theories/FunctionProofs.v
theories/FunctionProps.v
theories/FloatAccumModel.v
theories/FloatAccumSpec.v
theories/FloatAccumProofs.v
theories/FloatAccumProps.v
theories/FloatSumSpec.v
theories/FloatSumProofs.v
theories/FloatSumProps.v
theories/WholeModel.v
theories/WholeSpec.v
theories/WholeProofs.v
theories/WholeProps.v
theories/FloatMedianModel.v
theories/FloatMedianSpec.v
theories/FloatMedianProofs.v
theories/FloatMedianProps.v
theories/FloatClampModel.v
theories/FloatClampSpec.v
theories/FloatClampProofs.v
theories/FloatClampProps.v
theories/NanModel.v
theories/NanSpec.v
theories/NanProofs.v
theories/NanProps.v
