-Q theories Verif

theories/Base.v
theories/StampM.v
theories/StampP.v
theories/PropsStamp.v
theories/F64.v
theories/TruthM.v
theories/TruthS.v
theories/TruthP.v
theories/TruthP2.v
theories/PropsTruth.v
theories/PQueueM.v
theories/PQueueP.v
theories/PropsPQ.v
theories/HashM.v
theories/HashP.v
theories/StackM.v
theories/StackP.v
theories/HashTableM.v
theories/HashTableS.v
theories/HashTableP.v
theories/PropsHash.v
theories/TermM.v
theories/TermS.v
theories/TermP.v
theories/PropsTerm.v
theories/NamesM.v
theories/EventM.v
theories/InferenceM.v
theories/TableM.v
theories/TableS.v
theories/TableP.v
theories/PropsTable.v
theories/TermP2.v
theories/InferenceS.v
theories/InferenceP.v
theories/PropsEvent.v
theories/RingM.v
theories/RingP.v
theories/PropsRing.v
theories/InvIndexM.v
theories/InvIndexS.v
theories/InvIndexP.v
theories/InvIndexP2.v
theories/PropsIndex.v
theories/UsageM.v
theories/UsageP.v
theories/PropsUsage.v
theories/AtomsM.v
theories/AtomsS.v
theories/AtomsP.v
theories/PropsAtoms.v
theories/VariableM.v
theories/VariableS.v
theories/VariableP.v
theories/VariableP2.v
theories/NormP.v
theories/IntroP.v
theories/CountP.v
theories/PropsVariable.v
theories/SubstP.v
theories/MemoryM.v
theories/MemoryS.v
theories/MemoryP.v
theories/UsefulP.v
theories/EQueueP.v
theories/MemoryP2.v
theories/MemoryP3.v
theories/PropsMemory.v
theories/ParserM.v
theories/ParserS.v
theories/ParserP.v
theories/ParserP2.v
theories/ParserP3.v
theories/PrintP.v
theories/ReadP.v
theories/TextP.v
theories/PropsParser.v
theories/OpsM.v
theories/OpsS.v
theories/OpsP.v
theories/PropsOps.v
theories/QuestionM.v
theories/QuestionS.v
theories/QuestionP.v
theories/PropsQuestion.v
theories/DecisionM.v
theories/DecisionS.v
theories/BabbleP.v
theories/PropsBabble.v
theories/DecisionP.v
theories/PropsDecision.v
theories/WeakenP.v
theories/AnticipateS.v
theories/AnticipateP.v
theories/PropsAnticipate.v
theories/NalM.v
theories/EverywhereS.v
theories/EverywhereP.v
theories/NalS.v
theories/NalP.v
theories/PropsNal.v
theories/RulesM.v
theories/RulesS.v
theories/RulesP.v
theories/RulesP2.v
theories/RulesP3.v
theories/PropsRules.v
theories/CycleM.v
theories/CycleP1.v
theories/CycleP2.v
theories/CycleP3.v
theories/CycleP4.v
theories/CycleS.v
theories/CycleP5.v
theories/PropsCycle.v
theories/ShellM.v
theories/ShellS.v
theories/ShellP.v
theories/ShellP2.v
theories/ShellP3.v
theories/PropsShell.v
theories/UdpM.v
theories/UdpS.v
theories/UdpP.v
theories/PropsUdp.v
theories/SeqS.v
theories/SeqP.v
theories/PropsSeq.v
theories/SysS.v
theories/SysP.v
theories/SysP2.v
theories/PropsSys.v
theories/AddS.v
theories/AddP.v
theories/AddP2.v
theories/PropsAdd.v
theories/OutcomeS.v
theories/PropsOutcome.v
theories/EvidS.v
theories/EvidP1.v
theories/EvidP2.v
theories/EvidP3.v
theories/EvidP4.v
theories/PropsEvid.v
theories/LearnS.v
theories/LearnP.v
theories/LearnP2.v
theories/PropsLearn.v
theories/ShapeS.v
theories/ShapeP1.v
theories/ShapeP2.v
theories/ShapeP3.v
theories/SubgoalS.v
theories/SubgoalP.v
theories/SubgoalP2.v
theories/PropsSubgoal.v
theories/InferS.v
theories/InferP.v
theories/InferP2.v
theories/PropsInfer.v
theories/PruneP.v
theories/PerceiveS.v
theories/PerceiveP.v
theories/CompareP.v
theories/PropsPerceive.v
theories/ExecS.v
theories/ExecP.v
theories/PropsExec.v
theories/PropsAddSession.v
theories/AddS2.v
theories/AddP3.v
theories/PropsAddDecl.v
theories/MetricM.v
theories/MetricS.v
theories/MetricP.v
theories/PropsMetric.v
theories/MainM.v
theories/MainS.v
theories/PropsMain.v
theories/StampPrintM.v
theories/StampPrintS.v
theories/PropsStampPrint.v
theories/PropsHashChain.v
theories/PropsTruthExact.v
