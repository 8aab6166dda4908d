-Q theories Verif
theories/Spec/LLVMInt.v
theories/Spec/IR.v
theories/Base/ZBits.v
theories/Model/Boogie.v
theories/Model/PreludeInt.v
theories/Model/SmackRepInt.v
theories/Proofs/Lookup.v
theories/Proofs/PreludeCalls.v
theories/Proofs/ExprSim.v
theories/Proofs/IntEncodings.v
theories/Proofs/IntUnbounded.v
theories/Proofs/EventGuards.v
theories/Spec/Encodings.v
theories/Proofs/IntMain.v
theories/Props/IntProps.v
theories/Model/Intrinsics.v
theories/Spec/BitCount.v
theories/Proofs/IntrinsicsProofs.v
theories/Props/IntrinsicProps.v
theories/Spec/Overflow.v
theories/Model/OverflowChecker.v
theories/Proofs/OverflowProofs.v
theories/Proofs/OverflowBoogie.v
theories/Props/OverflowProps.v
theories/Model/RewriteBitwise.v
theories/Proofs/RewriteBitwiseProofs.v
theories/Proofs/RewriteShiftProofs.v
theories/Props/BitwiseProps.v
theories/Spec/CFG.v
theories/Model/ControlFlow.v
theories/Proofs/CFGBase.v
theories/Proofs/CFGProofs.v
theories/Model/NormalizeLoops.v
theories/Proofs/SplitEdges.v
theories/Proofs/SplitSim.v
theories/Spec/BitVectorIR.v
theories/Model/BitVectorCode.v
theories/Proofs/BitVectorCFG.v
theories/Proofs/SSACheck.v
theories/Proofs/ControlMain.v
theories/Proofs/ControlExamples.v
theories/Model/AnnotateLoopExits.v
theories/Proofs/LoopExitProofs.v
theories/Props/ControlProps.v
theories/Model/PreludeMem.v
theories/Model/Globals.v
theories/Model/MemIntrinsics.v
theories/Proofs/EvalCompose.v
theories/Proofs/MemCalls.v
theories/Spec/ByteMemory.v
theories/Proofs/ByteMem.v
theories/Spec/Pointers.v
theories/Proofs/PtrProofs.v
theories/Proofs/MemMain.v
theories/Proofs/PtrCmp.v
theories/Proofs/GlobalsProofs.v
theories/Proofs/MemIntrinsicsProofs.v
theories/Props/MemProps.v
theories/Props/LayoutProps.v
theories/Props/MemCopyProps.v
theories/Model/Regions.v
theories/Spec/Aliasing.v
theories/Proofs/RegionsProofs.v
theories/Proofs/TypeSafe.v
theories/Props/RegionProps.v
theories/Model/Allocator.v
theories/Spec/Blocks.v
theories/Proofs/AllocProofs.v
theories/Proofs/AllocModels.v
theories/Props/AllocProps.v
theories/Spec/MemProgram.v
theories/Model/MemorySafetyChecker.v
theories/Props/InstrumentProps.v
theories/Spec/Aggregates.v
theories/Model/SplitAggregateValue.v
theories/Model/CodifyStaticInits.v
theories/Proofs/AggregateProofs.v
theories/Props/AggregateProps.v
theories/Spec/Gep.v
theories/Spec/AggProgram.v
theories/Model/MergeGEP.v
theories/Model/SimplifyExtractValue.v
theories/Props/GepProps.v
theories/Props/ExtractProps.v
theories/Model/SimplifyInsertValue.v
theories/Props/InsertProps.v
theories/Spec/CallGraph.v
theories/Model/RemoveDeadDefs.v
theories/Props/DeadDefProps.v
theories/Spec/IndirectCall.v
theories/Model/Devirt.v
theories/Props/DevirtProps.v
theories/Spec/Regex.v
theories/Model/PyRegex.v
theories/Props/RegexProps.v
theories/Model/Driver.v
theories/Props/DriverProps.v
theories/Spec/CString.v
theories/Model/StringLib.v
theories/Props/StringProps.v
theories/Spec/Threads.v
theories/Model/Pthread.v
theories/Props/PthreadProps.v
theories/Spec/Identifiers.v
theories/Model/Naming.v
theories/Props/NamingProps.v
theories/Spec/Template.v
theories/Model/InlineCode.v
theories/Props/TemplateProps.v
theories/Spec/CTypes.v
theories/Model/Nondet.v
theories/Proofs/NondetProofs.v
theories/Props/NondetProps.v
theories/Spec/Atomics.v
theories/Model/Atomics.v
theories/Proofs/AtomicProofs.v
theories/Props/AtomicProps.v
theories/Spec/TraceValues.v
theories/Model/ErrTrace.v
theories/Proofs/TraceFloats.v
theories/Proofs/TraceText.v
theories/Props/TraceProps.v
theories/Spec/IEEE.v
theories/Model/Floats.v
theories/Props/FloatProps.v
theories/Spec/FlatMemory.v
theories/Spec/PointsTo.v
theories/Model/RegionVars.v
theories/Proofs/FlatSim.v
theories/Proofs/FlatInit.v
theories/Proofs/FlatRegions.v
theories/Props/FlatProps.v
theories/Spec/VectorOps.v
theories/Model/Vectors.v
theories/Model/VectorSem.v
theories/Spec/VectorEnc.v
theories/Proofs/VectorTable.v
theories/Proofs/VectorTyping.v
theories/Proofs/VectorLanes.v
theories/Proofs/VectorModel.v
theories/Props/VectorProps.v
theories/Spec/BoogieSyntax.v
theories/Model/BoogieAst.v
theories/Proofs/BoogieLex.v
theories/Proofs/BoogieParse.v
theories/Props/PrintProps.v
theories/Spec/FloatArith.v
theories/Spec/CMath.v
theories/Model/FloatOps.v
theories/Model/MathLib.v
theories/Proofs/Rounding.v
theories/Proofs/MathEval.v
theories/Proofs/MathFacts.v
theories/Proofs/MathLibFacts.v
theories/Proofs/MathLibFacts2.v
theories/Props/MathProps.v
theories/Spec/IEEERound.v
theories/Proofs/CorrectRounding.v
theories/Props/FloatOpsProps.v
theories/Spec/VerifierCode.v
theories/Spec/CostAttribute.v
theories/Model/Timing.v
theories/Proofs/TimingProofs.v
theories/Proofs/TimingCost.v
theories/Props/TimingProps.v
theories/Spec/RustVec.v
theories/Model/RustVec.v
theories/Proofs/RustHeap.v
theories/Proofs/RustVecProofs.v
theories/Proofs/RustVecMore.v
theories/Proofs/RustVecSim.v
theories/Proofs/RustVecList.v
theories/Proofs/RustAlloc.v
theories/Props/RustVecProps.v
theories/Spec/RustProgram.v
theories/Model/RustFixes.v
theories/Proofs/RustFixesProofs.v
theories/Props/RustFixesProps.v
theories/Spec/Procedures.v
theories/Model/Procedures.v
theories/Proofs/ProcNames.v
theories/Proofs/ProcCalls.v
theories/Proofs/ProcMain.v
theories/Props/ProceduresProps.v
theories/Spec/Exceptions.v
theories/Model/Exceptions.v
theories/Proofs/ExceptionsProofs.v
theories/Props/ExceptionsProps.v
theories/Spec/StdLib.v
theories/Model/StdLib.v
theories/Proofs/StdLibProofs.v
theories/Props/StdLibProps.v
theories/Spec/Contracts.v
theories/Model/ExtractContracts.v
theories/Proofs/ContractsProofs.v
theories/Proofs/ContractRegions.v
theories/Props/ContractsProps.v
theories/Spec/Replay.v
theories/Model/Replay.v
theories/Proofs/ReplayText.v
theories/Proofs/ReplayMissing.v
theories/Proofs/ReplayRun.v
theories/Props/ReplayProps.v
theories/Spec/Program.v
theories/Model/WholeProgram.v
theories/Proofs/ProgramSim.v
theories/Props/EndToEndProps.v
theories/Spec/DefaultMode.v
theories/Model/DefaultMode.v
theories/Proofs/Lockstep.v
theories/Proofs/DefaultExpr.v
theories/Proofs/DefaultSim.v
theories/Proofs/CleanRuns.v
theories/Props/DefaultModeProps.v
theories/Spec/Warnings.v
theories/Model/Warnings.v
theories/Props/WarningsProps.v
theories/Spec/SplitMemory.v
theories/Model/SplitMemory.v
theories/Proofs/MapFunc.v
theories/Proofs/RegionSim.v
theories/Props/SplitMemoryProps.v
theories/Spec/SplitBits.v
theories/Model/SplitBits.v
theories/Proofs/BitRegionSim.v
theories/Props/SplitBitsProps.v
theories/Spec/SafeProgram.v
theories/Model/SafeProgram.v
theories/Proofs/SafeAlloc.v
theories/Proofs/SafePass.v
theories/Proofs/SafeSim.v
theories/Proofs/SafeWhole.v
theories/Props/SafeProgramProps.v
theories/Spec/OverflowProgram.v
theories/Model/OverflowProgram.v
theories/Proofs/OverflowPass.v
theories/Proofs/OverflowSim.v
theories/Proofs/OverflowWhole.v
theories/Props/OverflowProgramProps.v
theories/Spec/OverflowDefault.v
theories/Proofs/OverflowDefaultExpr.v
theories/Proofs/OverflowDefaultSim.v
theories/Proofs/OverflowDefaultWhole.v
theories/Props/OverflowDefaultProps.v
theories/Spec/Witness.v
theories/Model/Witness.v
theories/Proofs/WitnessProofs.v
theories/Props/WitnessProps.v
theories/Spec/Svcomp.v
theories/Model/Svcomp.v
theories/Props/SvcompProps.v
theories/Spec/Linking.v
theories/Model/Externalize.v
theories/Props/ExternalizeProps.v
theories/Spec/Annotate.v
theories/Model/Annotate.v
theories/Props/AnnotateProps.v
theories/Spec/Frontend.v
theories/Model/Frontend.v
theories/Props/FrontendProps.v
theories/Spec/VerifierRun.v
theories/Model/VerifyBpl.v
theories/Props/VerifyBplProps.v
theories/Spec/Cleanup.v
theories/Model/Cleanup.v
theories/Props/CleanupProps.v
theories/Spec/VectorMem.v
theories/Model/VectorMem.v
theories/Props/VectorMemProps.v
theories/Spec/CompileDb.v
theories/Model/CompileDb.v
theories/Props/CompileDbProps.v
theories/Spec/Cargo.v
theories/Model/Cargo.v
theories/Props/CargoProps.v
theories/Spec/SvcompRun.v
theories/Model/SvcompRun.v
theories/Props/SvcompRunProps.v
