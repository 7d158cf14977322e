-Q theories Verif
theories/Base.v
theories/DatapackModel.v
theories/DatapackSpec.v
theories/DatapackProofs.v
theories/DatapackProofs2.v
theories/DatapackTlv.v
theories/DatapackProps.v
theories/RingModel.v
theories/RingSpec.v
theories/RingProofs.v
theories/RingProps.v
theories/HistoryModel.v
theories/HistorySpec.v
theories/HistoryProofs.v
theories/HistoryProps.v
theories/HexModel.v
theories/HexSpec.v
theories/HexProofs.v
theories/HexProps.v
theories/ParseModel.v
theories/ParseSpec.v
theories/ParseProofs.v
theories/ParseProps.v
theories/DataModel.v
theories/DataSpec.v
theories/DataProofs.v
theories/DataProps.v
theories/IntArrayModel.v
theories/IntArraySpec.v
theories/IntArrayProofs.v
theories/IntArrayProps.v
theories/Lex.v
theories/IntsModel.v
theories/IntsSpec.v
theories/IntsProofs.v
theories/IntsProps.v
theories/PtrvModel.v
theories/PtrvSpec.v
theories/PtrvProofs.v
theories/PtrvProps.v
theories/StrvModel.v
theories/StrvSpec.v
theories/StrvProofs.v
theories/StrvAlias.v
theories/StrvProps.v
theories/ObjvModel.v
theories/ObjvSpec.v
theories/ObjvProofs.v
theories/ObjvProps.v
theories/IdleQueueModel.v
theories/IdleQueueSpec.v
theories/IdleQueueProofs.v
theories/IdleQueueInv.v
theories/IdleQueueStep.v
theories/IdleQueueFair.v
theories/IdleQueuePass.v
theories/IdleQueueProps.v
theories/IdlePoolModel.v
theories/IdlePoolSpec.v
theories/IdlePoolProofs.v
theories/IdlePoolInv.v
theories/IdlePoolStep.v
theories/IdlePoolSane.v
theories/IdlePoolCare.v
theories/IdlePoolPass.v
theories/IdlePoolProps.v
theories/LogModel.v
theories/LogSpec.v
theories/LogProofs.v
theories/LogProofs2.v
theories/LogProofs3.v
theories/LogProps.v
theories/MacroModel.v
theories/MacroSpec.v
theories/MacroProps.v
theories/InotifyModel.v
theories/InotifySpec.v
theories/InotifyParse.v
theories/InotifyProofs.v
theories/InotifyProofs2.v
theories/InotifyProofs3.v
theories/InotifyMicro.v
theories/InotifyFacts.v
theories/InotifyFacts2.v
theories/InotifyProps.v
theories/RefModel.v
theories/RefSpec.v
theories/RefProofs.v
theories/RefProofs2.v
theories/RefProofs3.v
theories/RefProps.v
theories/WeakModel.v
theories/WeakSpec.v
theories/WeakProofs.v
theories/WeakProps.v
theories/TimeModel.v
theories/TimeSpec.v
theories/TimeProofs.v
theories/TimeProofs2.v
theories/TimeProofs3.v
theories/TimeProps.v
theories/KeepModel.v
theories/KeepSpec.v
theories/KeepProofs.v
theories/KeepProps.v
theories/CbModel.v
theories/CbSpec.v
theories/CbProofs.v
theories/CbProps.v
theories/DescModel.v
theories/DescSpec.v
theories/DescProofs.v
theories/DescProps.v
theories/DpoolModel.v
theories/DpoolSpec.v
theories/DpoolProofs.v
theories/DpoolTrace.v
theories/DpoolSource.v
theories/DpoolOwn.v
theories/DpoolPass.v
theories/DpoolProps.v
theories/Tlv32Model.v
theories/Tlv32Spec.v
theories/Tlv32Props.v
theories/Size32Model.v
theories/Size32Props.v
theories/ReleaseModel.v
theories/ReleaseSpec.v
theories/ReleaseProps.v
theories/MessageModel.v
theories/MessageSpec.v
theories/MessageProps.v
theories/FinalModel.v
theories/FinalSpec.v
theories/FinalProofs.v
theories/FinalProps.v
theories/WordsModel.v
theories/WordsSpec.v
theories/WordsProofs.v
theories/WordsProps.v
theories/RingRoomSpec.v
theories/RingRoomProps.v
theories/VariantModel.v
theories/VariantSpec.v
theories/VariantProofs.v
theories/VariantProps.v
theories/DefinedProps.v
theories/ReportModel.v
theories/ReportSpec.v
theories/ReportProofs.v
theories/ReportProofs2.v
theories/ReportProofs3.v
theories/ReportProofs4.v
theories/ReportProps.v
theories/DefinedLogProps.v
theories/IntExactProps.v
theories/TlvExactProps.v
theories/StrvLimitProps.v
theories/DataLimitProps.v
theories/RingCbSpec.v
theories/RingCbProps.v
theories/StrvBigProps.v
theories/LogLimitProps.v
theories/Tlv32ExactProps.v
theories/DescExactProps.v
theories/StrvAddvProps.v
