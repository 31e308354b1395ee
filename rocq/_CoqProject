-Q theories Verif
theories/Base.v
theories/BaseLemmas.v
theories/HashModel.v
theories/HashProofs.v
theories/HashProps.v
theories/HashTableModel.v
theories/HashTableProofs.v
theories/HashTableSpec.v
theories/HashTableProofs2.v
theories/HashTableProps.v
theories/GCModel.v
theories/GCSpec.v
theories/GCProofs.v
theories/GCProps.v
theories/FloatModel.v
theories/OpsModel.v
theories/OpsSpec.v
theories/FloatProofs.v
theories/OpsProofs.v
theories/OpsProofs2.v
theories/OpsProofs3.v
theories/OpsProofs4.v
theories/OpsProofs5.v
theories/OpsProps.v
theories/SerialModel.v
theories/SerialSpec.v
theories/SerialProofs.v
theories/SerialProps.v
theories/StdModel.v
theories/StdSpec.v
theories/StdProofs.v
theories/StdProps.v
theories/FormatModel.v
theories/FormatSpec.v
theories/FormatProofs.v
theories/FormatProps.v
theories/StrLibModel.v
theories/StrLibSpec.v
theories/StrLibProofs.v
theories/StrLibProps.v
theories/ArrayModel.v
theories/ArraySpec.v
theories/ArrayProofs.v
theories/ArrayProofs2.v
theories/ArrayProofs3.v
theories/ArrayProofs4.v
theories/ArrayProps.v
theories/HashKeyModel.v
theories/HashKeySpec.v
theories/HashKeyProps.v
theories/SchedModel.v
theories/SchedSpec.v
theories/SchedProofs.v
theories/SchedProps.v
theories/VmModel.v
theories/VmSpec.v
theories/OpsLocal.v
theories/VmProofs.v
theories/VmProps.v
theories/ContModel.v
theories/ContSpec.v
theories/ContProps.v
theories/MsgModel.v
theories/MsgSpec.v
theories/MsgProps.v
theories/PacketModel.v
theories/PacketProps.v
theories/WStrModel.v
theories/WStrSpec.v
theories/WStrProofs.v
theories/WStrProps.v
theories/EmitModel.v
theories/JumpSpec.v
theories/JumpProofs.v
theories/JumpProps.v
theories/CcModel.v
theories/LinkModel.v
theories/LinkSpec.v
theories/CtlSpec.v
theories/LayProofs.v
theories/AppendProofs.v
theories/StepProofs.v
theories/TableProofs.v
theories/CtlProofs.v
theories/CtlSem.v
theories/CtlSim.v
theories/CtlUnit.v
theories/CtlProps.v
theories/LinkProofs.v
theories/LinkProps.v
theories/WholeProps.v
theories/ExprModel.v
theories/ExprSpec.v
theories/ExprEmit.v
theories/ExprNest.v
theories/ExprProofs.v
theories/ExprStack.v
theories/ExprRun.v
theories/ExprText.v
theories/ExprProps.v
theories/ExprAssign.v
theories/DepthProofs.v
theories/FuseSpec.v
theories/FuseRules.v
theories/FuseChunks.v
theories/FuseProofs.v
theories/FuseProps.v
theories/YieldSpec.v
theories/YieldLocal.v
theories/YieldProofs.v
theories/YieldProps.v
theories/TokenModel.v
theories/TokenSpec.v
theories/TokenProofs.v
theories/LiteralModel.v
theories/TokenProps.v
theories/EvalSpec.v
theories/EvalProofs.v
theories/EvalRun.v
theories/EvalNest.v
theories/EvalBlock.v
theories/EvalProps.v
theories/ProgSpec.v
theories/ProgCode.v
theories/ProgCtl.v
theories/ProgRun.v
theories/CallRun.v
theories/ProgMean.v
theories/ProgCall.v
theories/CallCode.v
theories/ProgProps.v
theories/CallProps.v
theories/ParseModel.v
theories/ExprParam.v
theories/ParseSpec.v
theories/ParseProofs.v
theories/ParseRun.v
theories/ParseProps.v
theories/TextModel.v
theories/TextSpec.v
theories/TextCall.v
theories/TextExpr.v
theories/TextBlocks.v
theories/TextProofs.v
theories/TextRun.v
theories/TextProps.v
theories/ScriptSpec.v
theories/ScriptCode.v
theories/ScriptProps.v
theories/ScriptCallProps.v
theories/LinkedModel.v
theories/LinkedSpec.v
theories/LinkedProofs.v
theories/DebugModel.v
theories/DebugSpec.v
theories/DebugProofs.v
theories/LinkedProps.v
theories/DebugProps.v
theories/StackModel.v
theories/StackProps.v
theories/SymbolModel.v
theories/SymbolProps.v
theories/LineModel.v
theories/LineProps.v
