-Q theories Verif
theories/Base.v
theories/BaseLemmas.v
theories/CxQueueModel.v
theories/CxQueueSpec.v
theories/CxQueueProofs.v
theories/CxQueueProps.v
theories/CxQueueZeroProps.v
theories/CxVectorModel.v
theories/CxVectorSpec.v
theories/CxVectorProofs.v
theories/CxVectorProps.v
theories/VecProgModel.v
theories/VecProgSpec.v
theories/VecProgProofs.v
theories/VecProgProps.v
theories/CxSetModel.v
theories/CxSetSpec.v
theories/CxSetProofs.v
theories/CxSetProps.v
theories/CxMapModel.v
theories/CxMapSpec.v
theories/CxMapProofs.v
theories/CxMapProps.v
theories/CxMultimapModel.v
theories/CxMultimapSpec.v
theories/CxMultimapProofs.v
theories/CxMultimapProps.v
theories/Ints.v
theories/IntsLemmas.v
theories/RolloverModel.v
theories/RolloverSpec.v
theories/RolloverProofs.v
theories/RolloverProps.v
theories/SaturateModel.v
theories/SaturateSpec.v
theories/SaturateProofs.v
theories/SaturateProps.v
theories/IntrusiveListModel.v
theories/IntrusiveListSpec.v
theories/IntrusiveListProofs.v
theories/IntrusiveListProps.v
theories/ForwardListModel.v
theories/ForwardListSpec.v
theories/ForwardListProofs.v
theories/ForwardListProps.v
theories/BitLemmas.v
theories/BitModel.v
theories/BitSpec.v
theories/BitProofs.v
theories/BitProofs2.v
theories/BitProps.v
theories/BitsetModel.v
theories/BitsetSpec.v
theories/BitsetProofs.v
theories/TypeBitsetModel.v
theories/TypeBitsetSpec.v
theories/TypeBitsetProofs.v
theories/BitsetProofs2.v
theories/TypeBitsetProofs2.v
theories/BitsetProps.v
theories/TypeBitsetProps.v
theories/ZeroBitsetSpec.v
theories/ZeroBitsetProofs.v
theories/ZeroBitsetProps.v
theories/ConcModel.v
theories/ConcSpec.v
theories/ConcProofs.v
theories/AtomicModel.v
theories/AtomicSpec.v
theories/AtomicBitsetModel.v
theories/AtomicBitsetSpec.v
theories/AtomicProofs.v
theories/AtomicBitsetProofs.v
theories/AtomicProps.v
theories/AtomicSignedSpec.v
theories/AtomicSignedProofs.v
theories/AtomicSignedProps.v
theories/ByteratorModel.v
theories/ByteratorSpec.v
theories/ByteratorProofs.v
theories/ByteratorProofs2.v
theories/SpanModel.v
theories/SpanSpec.v
theories/SpanProofs.v
theories/SpanProofs2.v
theories/ByteratorProps.v
theories/SpanProps.v
theories/AlgorithmModel.v
theories/AlgorithmSpec.v
theories/AlgorithmProofs.v
theories/CountingModel.v
theories/CountingSpec.v
theories/CountingProofs.v
theories/AlgorithmProps.v
theories/CtStringModel.v
theories/CtStringSpec.v
theories/CtStringProofs.v
theories/UdlModel.v
theories/UdlSpec.v
theories/UdlProofs.v
theories/FmtModel.v
theories/FmtSpec.v
theories/FmtProofs.v
theories/CtFormatModel.v
theories/CtFormatSpec.v
theories/CtFormatProofs.v
theories/CtFormatProofs2.v
theories/FreeFmt.v
theories/StringProps.v
theories/FmtProps.v
theories/TupleModel.v
theories/TupleSpec.v
theories/TupleProofs.v
theories/TupleProofs2.v
theories/TupleProofs3.v
theories/TupleWitness.v
theories/TupleProps.v
theories/CallByNeedModel.v
theories/CallByNeedSpec.v
theories/CallByNeedProofs.v
theories/CallByNeedProps.v
theories/EnvModel.v
theories/EnvSpec.v
theories/EnvProofs.v
theories/EnvProps.v
theories/TypeMapModel.v
theories/TypeMapProofs.v
theories/TypeMapProps.v
theories/ArgsModel.v
theories/ArgsProofs.v
theories/ArgsProps.v
theories/LatchedModel.v
theories/LatchedSpec.v
theories/LatchedProofs.v
theories/LatchedProps.v
theories/OptionalModel.v
theories/OptionalSpec.v
theories/OptionalProofs.v
theories/OptionalProps.v
theories/CtConvModel.v
theories/CtConvSpec.v
theories/CtConvProofs.v
theories/CtConvProps.v
theories/UtilModel.v
theories/UtilSpec.v
theories/UtilProofs.v
theories/UtilProps.v
theories/PpMapModel.v
theories/PpMapSpec.v
theories/PpMapProofs.v
theories/PpMapProofs2.v
theories/PpMapProofs3.v
theories/PpMapProofs4.v
theories/PpMapProps.v
theories/TypesModel.v
theories/TypesSpec.v
theories/TypesProofs.v
theories/TypesProps.v
theories/SeqModel.v
theories/SeqSpec.v
theories/SeqProofs.v
theories/SeqProps.v
theories/RelaxedModel.v
theories/RelaxedProofs.v
theories/RelaxedProps.v
theories/MoveModel.v
theories/MoveSpec.v
theories/MoveProofs.v
theories/MoveProofs2.v
theories/MoveProofs3.v
theories/MoveProofs4.v
theories/MoveProps.v
theories/FloatSatModel.v
theories/FloatSatSpec.v
theories/FloatSatProofs.v
theories/FloatSatProofs2.v
theories/FloatSatProps.v
theories/RefModel.v
theories/RefSpec.v
theories/RefProofs.v
theories/RefProps.v
theories/OptMoveModel.v
theories/OptMoveSpec.v
theories/OptMoveProofs.v
theories/OptMoveProps.v
theories/BindMoveModel.v
theories/BindMoveSpec.v
theories/BindMoveProofs.v
theories/BindMoveProps.v
theories/OptAssignModel.v
theories/OptAssignSpec.v
theories/OptAssignProps.v
theories/MultiModel.v
theories/MultiSpec.v
theories/MultiProofs.v
theories/MultiProofs2.v
theories/MultiProofs3.v
theories/MultiProofs4.v
theories/MultiProofs5.v
theories/MultiProps.v
theories/BitTests.v
theories/BitsetTests.v
theories/CxTests.v
theories/CtTests.v
theories/ListTests.v
theories/MemTests.v
theories/TupleTests.v
theories/AlgoTests.v
theories/MiscTests.v
theories/TypeTests.v
theories/AtomTests.v
theories/FailTests.v
theories/LazyModel.v
theories/LazySpec.v
theories/LazyProofs.v
theories/LazyProps.v
theories/ThrowModel.v
theories/ThrowSpec.v
theories/ThrowProofs.v
theories/ThrowProps.v
theories/OptLifeModel.v
theories/OptLifeSpec.v
theories/OptLifeProofs.v
theories/OptLifeProps.v
theories/RetainSpec.v
theories/RetainProofs.v
theories/RetainProps.v
theories/AtomKindModel.v
theories/AtomKindSpec.v
theories/AtomKindProps.v
theories/WrapModel.v
theories/WrapSpec.v
theories/WrapProps.v
theories/PanicModel.v
theories/PanicProps.v
theories/DependModel.v
theories/DependSpec.v
theories/DependProofs.v
theories/DependProps.v
theories/PoolModel.v
theories/PoolSpec.v
theories/PoolProofs.v
theories/PoolProps.v
theories/CursorModel.v
theories/CursorSpec.v
theories/CursorProofs.v
theories/CursorProps.v
theories/SweepModel.v
theories/SweepProofs.v
theories/SweepProps.v
theories/RefMultiModel.v
theories/RefMultiSpec.v
theories/RefMultiProofs.v
theories/RefMultiProps.v
theories/RetainMultiProps.v
theories/ThrowMultiModel.v
theories/ThrowMultiSpec.v
theories/ThrowMultiProofs.v
theories/ThrowMultiProps.v
theories/AlgThrowModel.v
theories/AlgThrowSpec.v
theories/AlgThrowProofs.v
theories/AlgThrowProps.v
theories/GiveBackModel.v
theories/GiveBackSpec.v
theories/GiveBackProps.v
theories/CallOrderModel.v
theories/CallOrderSpec.v
theories/CallOrderProofs.v
theories/CallOrderProps.v
theories/StaticAssertModel.v
theories/StaticAssertSpec.v
theories/StaticAssertProofs.v
theories/StaticAssertProps.v
theories/StructuralModel.v
theories/StructuralSpec.v
theories/StructuralProofs.v
theories/StructuralProps.v
theories/AliasModel.v
theories/AliasSpec.v
theories/AliasProofs.v
theories/AliasProps.v
theories/RollTypeModel.v
theories/RollTypeProps.v
theories/TwoStageSpec.v
theories/TwoStageProofs.v
theories/TwoStageProps.v
theories/MakeTupleModel.v
theories/MakeTupleProps.v
theories/RaceSpec.v
theories/MultiProofs6.v
theories/MultiProofs7.v
theories/RaceProofs.v
theories/RaceProps.v
theories/MultiProofs8.v
theories/CountSpec.v
theories/CountProofs.v
theories/CountProps.v
theories/ProtocolModel.v
theories/ProtocolSpec.v
theories/ProtocolProofs.v
theories/ProtocolProps.v
theories/TombModel.v
theories/TombSpec.v
theories/TombProps.v
theories/UnpackModel.v
theories/UnpackSpec.v
theories/UnpackProps.v
theories/FmtArgModel.v
theories/FmtArgSpec.v
theories/FmtArgProps.v
theories/SpanCtorModel.v
theories/SpanCtorSpec.v
theories/SpanCtorProps.v
theories/OptMakeModel.v
theories/OptMakeSpec.v
theories/OptMakeProps.v
theories/TplListModel.v
theories/TplListSpec.v
theories/TplListProps.v
theories/RollTimerModel.v
theories/RollTimerSpec.v
theories/RollTimerProps.v
theories/RollChronoModel.v
theories/RollChronoSpec.v
theories/RollChronoProps.v
theories/SizedLitModel.v
theories/SizedLitProps.v
theories/PetersonSpec.v
theories/PetersonProofs.v
theories/PetersonProps.v
theories/FoldStateModel.v
theories/FoldStateSpec.v
theories/FoldStateProps.v
theories/RingSpec.v
theories/RingProofs.v
theories/RingProofs2.v
theories/RingProps.v
theories/CtsModel.v
theories/CtsSpec.v
theories/CtsProps.v
theories/ConceptModel.v
theories/ConceptSpec.v
theories/ConceptProps.v
theories/CompleteModel.v
theories/CompleteSpec.v
theories/CompleteProps.v
theories/MixModel.v
theories/MixSpec.v
theories/MixProofs.v
theories/MixProps.v
theories/LinkableModel.v
theories/LinkableSpec.v
theories/LinkableProofs.v
theories/LinkableProps.v
theories/SafeIdModel.v
theories/SafeIdSpec.v
theories/SafeIdProofs.v
theories/SafeIdProps.v
theories/WireModel.v
theories/WireSpec.v
theories/WireProofs.v
theories/WireProps.v
theories/KeyEqSpec.v
theories/KeyEqProofs.v
theories/KeyEqProps.v
theories/SignalSpec.v
theories/SignalProofs.v
theories/SignalProps.v
theories/EnumBitsetModel.v
theories/EnumBitsetSpec.v
theories/EnumBitsetProofs.v
theories/EnumBitsetProps.v
theories/CompareModel.v
theories/CompareSpec.v
theories/CompareProofs.v
theories/CompareProps.v
theories/WalkModel.v
theories/WalkSpec.v
theories/WalkProofs.v
theories/WalkProps.v
theories/LookupModel.v
theories/LookupSpec.v
theories/LookupProofs.v
theories/LookupProps.v
theories/ConstModel.v
theories/ConstSpec.v
theories/ConstProofs.v
theories/ConstProps.v
theories/SpanSrcModel.v
theories/SpanSrcSpec.v
theories/SpanSrcProps.v
theories/PlusModel.v
theories/PlusSpec.v
theories/PlusProofs.v
theories/PlusProps.v
theories/LatchThreadModel.v
theories/LatchThreadSpec.v
theories/LatchThreadProofs.v
theories/LatchThreadProps.v
theories/OverloadModel.v
theories/OverloadSpec.v
theories/OverloadProofs.v
theories/OverloadProps.v
theories/CaughtModel.v
theories/CaughtSpec.v
theories/CaughtProofs.v
theories/CaughtProps.v
theories/TouchModel.v
theories/TouchSpec.v
theories/TouchProofs.v
theories/TouchProofs2.v
theories/TouchProps.v
theories/KeyCmpModel.v
theories/KeyCmpSpec.v
theories/KeyCmpProofs.v
theories/KeyCmpProofs2.v
theories/KeyCmpProofs3.v
theories/KeyCmpProofs4.v
theories/KeyCmpProofs5.v
theories/KeyCmpProps.v
theories/LatchCopyModel.v
theories/LatchCopySpec.v
theories/LatchCopyProofs.v
theories/LatchCopyProps.v
theories/NodeValueModel.v
theories/NodeValueSpec.v
theories/NodeValueProofs.v
theories/NodeValueProps.v
theories/ValueCopyModel.v
theories/ValueCopySpec.v
theories/ValueCopyProofs.v
theories/ValueCopyProps.v
theories/ApplyJoinModel.v
theories/ApplyJoinSpec.v
theories/ApplyJoinProofs.v
theories/ApplyJoinProps.v
theories/NodeValueFwdModel.v
theories/NodeValueFwdSpec.v
theories/NodeValueFwdProofs.v
theories/NodeValueFwdProps.v
theories/RollMixModel.v
theories/RollMixSpec.v
theories/RollMixProofs.v
theories/RollMixProps.v
theories/WaitModel.v
theories/WaitSpec.v
theories/WaitProofs.v
theories/WaitProofs2.v
theories/WaitProps.v
theories/TicketSpec.v
theories/TicketProofs.v
theories/TicketProofs2.v
theories/TicketProps.v
theories/OperSpec.v
theories/OperModel.v
theories/OperProps.v
theories/PipeSpec.v
theories/PipeProofs.v
theories/PipeProofs2.v
theories/PipeProps.v
theories/BarrierSpec.v
theories/BarrierProofs.v
theories/BarrierProps.v
theories/SeqlockSpec.v
theories/SeqlockProofs.v
theories/SeqlockProofs2.v
theories/SeqlockProps.v
theories/SeqOrderSpec.v
theories/SeqOrderProofs.v
theories/SeqOrderProps.v
theories/TicketOrderSpec.v
theories/TicketOrderProofs.v
theories/TicketRollover.v
theories/TicketOrderProps.v
theories/CountdownSpec.v
theories/CountdownProofs.v
theories/CountdownProps.v
theories/PhaseSpec.v
theories/PhaseProofs.v
theories/PhaseProps.v
