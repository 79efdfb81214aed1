-Q theories Verif
theories/Vec.v
theories/GridSpec.v
theories/RangeModel.v
theories/BoxFacts.v
theories/RangeProofs.v
theories/RangeProps.v
theories/StorageSpec.v
theories/StorageModel.v
theories/StorageProofs.v
theories/StorageProps.v
theories/GridModel.v
theories/GridOpSpec.v
theories/GridProofs.v
theories/GridProps.v
theories/ShareModel.v
theories/ShareSpec.v
theories/ShareProofs.v
theories/KokkosModel.v
theories/KokkosSpec.v
theories/KokkosProofs.v
theories/ShareExamples.v
theories/ShareProps.v
theories/ArrayModel.v
theories/ArraySpec.v
theories/ArrayProofs.v
theories/ArrayExamples.v
theories/ArrayProps.v
theories/FieldModel.v
theories/FieldSpec.v
theories/FieldProofs.v
theories/FieldExamples.v
theories/FieldFloatModel.v
theories/FieldFloat.v
theories/FieldProps.v
theories/BoundaryModel.v
theories/BoundarySpec.v
theories/BoundaryProofs.v
theories/SerialProofs.v
theories/SubGridProofs.v
theories/BoundaryExamples.v
theories/ViewDims.v
theories/AccumulateProofs.v
theories/BoundaryProps.v
theories/FactorModel.v
theories/FactorProofs.v
theories/NetModel.v
theories/NetProofs.v
theories/MpiModel.v
theories/MpiSpec.v
theories/MpiProofs.v
theories/MpiComm.v
theories/MpiExchange.v
theories/MpiAccumulate.v
theories/MpiResults.v
theories/FactorExamples.v
theories/FactorProps.v
theories/MpiFloatModel.v
theories/MpiFloat.v
theories/MpiExamples.v
theories/MpiProps.v
theories/ExprModel.v
theories/ExprSyntax.v
theories/ExprSpec.v
theories/ExprBuildModel.v
theories/ExprProofs.v
theories/ExprExamples.v
theories/ExprProps.v
theories/DepModel.v
theories/DepSpec.v
theories/DepMapProofs.v
theories/DepProofs.v
theories/DepUpdateProofs.v
theories/DepExamples.v
theories/DepProps.v
theories/ScanModel.v
theories/ScanSpec.v
theories/ScanRegexProofs.v
theories/ScanTableProofs.v
theories/ScanProofs.v
theories/ScanLoopProofs.v
theories/ScanCommentProofs.v
theories/ScanExamples.v
theories/ScanProps.v
theories/ParseModel.v
theories/ParseSpec.v
theories/ParseTableProofs.v
theories/ParseProofs.v
theories/ParseSoundProofs.v
theories/ParseRunProofs.v
theories/ParseMoreProofs.v
theories/ParseDeepProofs.v
theories/ParseExamples.v
theories/ParseProps.v
theories/DeckModel.v
theories/DeckSyntax.v
theories/DeckReadProofs.v
theories/DeckMeaning.v
theories/DeckRunProofs.v
theories/ExprRefProofs.v
theories/DeckInvProofs.v
theories/DepCycleProofs.v
theories/DeckSpec.v
theories/DeckFinishProofs.v
theories/DeckLookupProofs.v
theories/DeckBraceProofs.v
theories/DeckEffectProofs.v
theories/DeckObjectProofs.v
theories/DeckExamples.v
theories/DeckProps.v
theories/BlockModel.v
theories/BlockSpec.v
theories/BlockTreeProofs.v
theories/BlockDataProofs.v
theories/BlockContainerProofs.v
theories/BlockParamProofs.v
theories/BlockEvalProofs.v
theories/BlockInitProofs.v
theories/BlockExamples.v
theories/BlockProps.v
theories/DiagModel.v
theories/DiagSpec.v
theories/DiagNameProofs.v
theories/DiagProofs.v
theories/DiagManagerProofs.v
theories/DiagFloatModel.v
theories/DiagFloatProofs.v
theories/DiagExamples.v
theories/DiagProps.v
theories/DeckStageProofs.v
theories/TextSpec.v
theories/TextProofs.v
theories/TextProps.v
theories/BufferModel.v
theories/BufferProofs.v
theories/BufferProps.v
theories/LitModel.v
theories/LitSpec.v
theories/LitProofs.v
theories/LitExamples.v
theories/LitProps.v
theories/RandModel.v
theories/RandProofs.v
theories/RandExamples.v
theories/RandProps.v
theories/FillModel.v
theories/FillSpec.v
theories/FillProofs.v
theories/FillExamples.v
theories/FillProps.v
theories/FillerModel.v
theories/FillerSpec.v
theories/FillerProofs.v
theories/StreamModel.v
theories/StreamSpec.v
theories/StreamProofs.v
theories/StreamExamples.v
theories/StreamProps.v
theories/HdfModel.v
theories/HdfSpec.v
theories/HdfProofs.v
theories/HdfSerialProofs.v
theories/HdfExamples.v
theories/HdfProps.v
theories/UtilModel.v
theories/UtilSpec.v
theories/UtilProofs.v
theories/UtilExamples.v
theories/UtilProps.v
theories/MpiRefuted.v
theories/DeckRefuted.v
theories/FactorSpec.v
theories/FactorOpt.v
theories/FactorFloat.v
theories/ExprGroupSpec.v
theories/ExprGroup.v
theories/RangeIntModel.v
theories/RangeInt.v
theories/RangeIntProps.v
theories/ReduceModel.v
theories/ReduceSpec.v
theories/Reduce.v
theories/ReduceExamples.v
theories/ReduceProps.v
theories/FileModel.v
theories/FileSpec.v
theories/FileProofs.v
theories/FileExamples.v
theories/FileProps.v
theories/DiagLifeModel.v
theories/DiagLifeProofs.v
theories/DiagLifeProps.v
theories/SimModel.v
theories/SimSpec.v
theories/SimProofs.v
theories/SimResults.v
theories/SimExamples.v
theories/SimProps.v
theories/BuiltinModel.v
theories/BuiltinSpec.v
theories/BuiltinProofs.v
theories/BuiltinFloat.v
theories/BuiltinExamples.v
theories/BuiltinProps.v
theories/ParamModel.v
theories/ParamSpec.v
theories/ParamProofs.v
theories/ParamExamples.v
theories/ParamProps.v
theories/GroupModel.v
theories/GroupSpec.v
theories/GroupProofs.v
theories/GroupExamples.v
theories/GroupProps.v
theories/ClassModel.v
theories/ClassSpec.v
theories/ClassProofs.v
theories/ClassDeckModel.v
theories/ClassExamples.v
theories/ClassProps.v
theories/LiveModel.v
theories/LiveSpec.v
theories/LiveProofs.v
theories/LiveExamples.v
theories/LiveProps.v
theories/BibSpec.v
theories/BibProofs.v
theories/BibProps.v
theories/MemSpec.v
theories/MemProofs.v
theories/MemProps.v
theories/ParseWhereProofs.v
theories/PlaceSpec.v
theories/PlaceProofs.v
theories/PlaceExamples.v
theories/PlaceProps.v
theories/ValueSpec.v
theories/ValueProofs.v
theories/ValueExamples.v
theories/ValueProps.v
theories/ReceiveProofs.v
theories/ReceiveProps.v
theories/ExtentModel.v
theories/ExtentSpec.v
theories/ExtentProofs.v
theories/ExtentExamples.v
theories/ExtentProps.v
theories/MemberModel.v
theories/MemberSpec.v
theories/MemberProofs.v
theories/MemberExamples.v
theories/MemberProps.v
theories/SubviewModel.v
theories/SubviewSpec.v
theories/SubviewProofs.v
theories/SubviewExamples.v
theories/SubviewProps.v
theories/AssignSpec.v
theories/AssignProofs.v
theories/AssignExamples.v
theories/AssignProps.v
theories/KAssignProofs.v
theories/KAssignExamples.v
theories/KAssignProps.v
theories/OwnModel.v
theories/OwnSpec.v
theories/OwnProofs.v
theories/OwnExamples.v
theories/OwnProps.v
theories/DiagSessionSpec.v
theories/DiagSessionProofs.v
theories/DiagSessionExamples.v
theories/DiagSessionProps.v
theories/ActiveModel.v
theories/ActiveSpec.v
theories/ActiveProofs.v
theories/ActiveExamples.v
theories/ActiveProps.v
theories/TransModel.v
theories/TransSpec.v
theories/TransProofs.v
theories/TransExamples.v
theories/TransProps.v
theories/FieldShareSpec.v
theories/FieldShareProofs.v
theories/FieldShareExamples.v
theories/FieldShareProps.v
theories/EvenSpec.v
theories/EvenProofs.v
theories/EvenExamples.v
theories/EvenProps.v
theories/ExtFloatModel.v
theories/ExtFloatSpec.v
theories/ExtFloatProofs.v
theories/ExtFloatExamples.v
theories/ExtFloatProps.v
theories/DiagDoubleProofs.v
theories/DiagDoubleProps.v
