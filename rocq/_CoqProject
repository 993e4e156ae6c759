-Q theories Verif
theories/Num.v
theories/NumFloat.v
theories/Base.v
theories/Signal.v
theories/QcTac.v
theories/Robust.v
theories/Transducer.v
theories/Driver.v
theories/Tables.v
theories/Parser.v
theories/Decimal.v
theories/Automaton.v
theories/ParserProof.v
theories/ParserSpec.v
theories/ParserTotal.v
theories/PrecProof.v
theories/LexProof.v
theories/PrintProof.v
theories/DeclProof.v
theories/DeclCall.v
theories/TraceProof.v
theories/ParserClaims.v
theories/Spec.v
theories/Repr.v
theories/AndProof.v
theories/NegProof.v
theories/SimplifyProof.v
theories/Lip.v
theories/BoolOps.v
theories/Closed.v
theories/SigProof.v
theories/ResizeProof.v
theories/NegTimed.v
theories/SignalClaims.v
theories/Prop_Signal.v
theories/EvProof.v
theories/PlateauProof.v
theories/BoundedProof.v
theories/TimedProof.v
theories/TimedCases.v
theories/UntilProof.v
theories/UntilTimed.v
theories/UntilClaims.v
theories/BooleanProof.v
theories/SafeSignal.v
theories/WithinSignal.v
theories/SafeTree.v
theories/BeyondProof.v
theories/ExprPass.v
theories/ExprProof.v
theories/ExprClaims.v
theories/BooleanClaims.v
theories/Prop_Temporal.v
theories/Prop_Until.v
theories/Prop_Boolean.v
theories/SafeClaims.v
theories/BeyondClaims.v
theories/Prop_Safe.v
theories/Prop_Beyond.v
theories/Prop_Expr.v
theories/StlSpec.v
theories/TreeProof.v
theories/ReadProof.v
theories/AtomProof.v
theories/NodeProof.v
theories/TreeRob.v
theories/BoundProof.v
theories/Interval.v
theories/BoundPass.v
theories/StlClaims.v
theories/Front.v
theories/UntilFront.v
theories/UntilStart.v
theories/UntilTree.v
theories/SafeUntil.v
theories/UntilOnline.v
theories/WithinTree.v
theories/Witness.v
theories/UntilWitness.v
theories/UntilEarly.v
theories/DriverSpec.v
theories/DriverProof.v
theories/LangSpec.v
theories/LangLex.v
theories/LangProof.v
theories/LangSound.v
theories/LangRead.v
theories/LangRun.v
theories/LangClaims.v
theories/Prop_Tree.v
theories/StepPlateau.v
theories/StepSig.v
theories/StepOr.v
theories/StepBounded.v
theories/StepTimed.v
theories/StepBool.v
theories/StepSpec.v
theories/StepRead.v
theories/StepTree.v
theories/StepClaims.v
theories/StepWitness.v
theories/StepUntil.v
theories/StepUntilSpec.v
theories/StepUntilTree.v
theories/StepUntilWitness.v
theories/Prop_Step.v
theories/StairSpec.v
theories/StairProof.v
theories/StairWitness.v
theories/Prop_Stairs.v
theories/Prop_Stl.v
theories/Prop_StlUntil.v
theories/SatSpec.v
theories/SatProof.v
theories/SatClaims.v
theories/Prop_Sat.v
theories/HeldSatSpec.v
theories/HeldSat.v
theories/HeldSatWitness.v
theories/Prop_HeldSat.v
theories/Prop_Driver.v
theories/Prop_Parser.v
theories/Tests.v
theories/TestsProof.v
theories/TestsClaims.v
theories/Prop_Tests.v
theories/Memory.v
theories/MemoryProof.v
theories/MemoryClaims.v
theories/MemoryValue.v
theories/Prop_Memory.v
theories/Double.v
theories/DoubleProof.v
theories/Lock.v
theories/LockTree.v
theories/DoubleClaims.v
theories/Rounded.v
theories/RoundLock.v
theories/DoubleWitness.v
theories/Prop_Double.v
theories/DecimalSpec.v
theories/DecimalProof.v
theories/DecimalShape.v
theories/DecimalClaims.v
theories/Prop_Decimal.v
theories/EndSpec.v
theories/EndProof.v
theories/EndWitness.v
theories/Prop_End.v
theories/EndMoreSpec.v
theories/EndMore.v
theories/EndMoreWitness.v
theories/Prop_EndMore.v
theories/FlexTables.v
theories/Flex.v
theories/FlexSpec.v
theories/FlexProof.v
theories/FlexRegex.v
theories/FlexLex.v
theories/FlexScan.v
theories/Prop_Flex.v
theories/TestsQueue.v
theories/Prop_Queue.v
