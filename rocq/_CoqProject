-Q theories Verif
theories/Num.v
theories/Py.v
theories/Extrema.v
theories/Prepare.v
theories/Spline.v
theories/Emd.v
theories/QcFacts.v
theories/PyFacts.v
theories/Spec.v
theories/EmdProofs.v
theories/EmdControl.v
theories/EmdExact.v
theories/EmdStop.v
theories/EmdTop.v
theories/Eemd.v
theories/Ceemdan.v
theories/Demo.v
theories/Diverge.v
theories/Runs.v
theories/ExtremaProofs.v
theories/ExtremaSpec.v
theories/PrepareProofs.v
theories/PreparePlan.v
theories/SplineProofs.v
theories/EmdSimple.v
theories/EmdFlat.v
theories/DemoFacts.v
theories/ParabolProofs.v
theories/EemdSpec.v
theories/EemdProofs.v
theories/EemdExact.v
theories/CeemdanSpec.v
theories/CeemdanProofs.v
theories/CeemdanExact.v
theories/Image.v
theories/ImageSpec.v
theories/ImageProofs.v
theories/ImageSift.v
theories/BemdProofs.v
theories/Recon.v
theories/ImageFinal.v
theories/ImageDemo.v
theories/ImageStopSpec.v
theories/ImageStop.v
theories/Compact.v
theories/CompactSpec.v
theories/CompactProofs.v
theories/CompactSchemes.v
theories/Heap.v
theories/HeapSpec.v
theories/HeapProofs.v
theories/HeapClient.v
theories/HeapEemd.v
theories/HeapEemdSpec.v
theories/HeapEemdProofs.v
theories/HeapCeemdan.v
theories/HeapCeemdanSpec.v
theories/HeapCeemdanProofs.v
theories/Props_Heap.v
theories/Props_HeapCeemdan.v
theories/CompactExact.v
theories/Utils.v
theories/UtilsSpec.v
theories/UtilsProofs.v
theories/UtilsRound.v
theories/Matlab.v
theories/MatlabSpec.v
theories/MatlabProofs.v
theories/MatlabRun.v
theories/MatlabDemo.v
theories/Float64.v
theories/Float64Proofs.v
theories/Props_Float.v
theories/Jit.v
theories/JitSpec.v
theories/JitProofs.v
theories/Props_Jit.v
theories/Checks.v
theories/ChecksSpec.v
theories/ChecksProofs.v
theories/Props_Checks.v
theories/Props_Emd.v
theories/Props_Extrema.v
theories/Props_Eemd.v
theories/Props_Flat.v
theories/Props_Compact.v
theories/Vis.v
theories/VisSpec.v
theories/VisProofs.v
theories/Props_Vis.v
theories/Props_Image.v
theories/Props_ImageStop.v
theories/Props_Ceemdan.v
theories/ParabolSpec.v
theories/ParabolPrepare.v
theories/ParabolAlt.v
theories/SymSpec.v
theories/EmdSym.v
theories/Conformance.v
theories/EemdStats.v
theories/StatsSpec.v
theories/StatsProofs.v
theories/Props_Sym.v
theories/Ctor.v
theories/CtorSpec.v
theories/CtorProofs.v
theories/Props_Stats.v
theories/Props_Ctor.v
theories/Props_Parabol.v
theories/Props_Prepare.v
theories/Props_Utils.v
theories/Typed.v
theories/TypedSpec.v
theories/TypedFloat.v
theories/TypedProofs.v
theories/IntExtrema.v
theories/TypedMore.v
theories/TypedMoreProofs.v
theories/Props_Typed.v
theories/Props_TypedMore.v
theories/UnitSpec.v
theories/EnsembleUnit.v
theories/ImageUnit.v
theories/Props_Unit.v
theories/FloatSpec.v
theories/FloatEnsemble.v
theories/FloatImage.v
theories/Props_FloatMore.v
theories/RevSpec.v
theories/Reverse.v
theories/ReverseEmd.v
theories/ReverseLin.v
theories/Props_Reverse.v
theories/Limit.v
theories/Props_Limit.v
theories/FloatNan.v
theories/Props_Nan.v
theories/JitObj.v
theories/JitObjProofs.v
theories/Props_JitObj.v
theories/TurnSpec.v
theories/Turn.v
theories/TurnBemd.v
theories/Props_Turn.v
theories/Peel.v
theories/Props_Peel.v
theories/NegGen.v
theories/NegEmd.v
theories/NegSpec.v
theories/NegFloat.v
theories/NegTime.v
theories/Props_NegFloat.v
theories/Envelope.v
theories/Props_Envelope.v
theories/HeapMatlab.v
theories/HeapMatlabSpec.v
theories/HeapMatlabProofs.v
theories/Props_HeapMatlab.v
theories/NegJit.v
theories/NegMore.v
theories/Props_NegMore.v
theories/StopSpec.v
theories/Stop.v
theories/StopTop.v
theories/StopJit.v
theories/StopMatlab.v
theories/Props_Stop.v
theories/FloatMatlab.v
theories/FailedSpec.v
theories/Failed.v
theories/Props_Failed.v
theories/MatlabInt.v
theories/MatlabIntProofs.v
theories/MatlabIntSpec.v
theories/MatlabIntCut.v
theories/FloatMatlabInt.v
theories/Kinds.v
theories/KindsSpec.v
theories/KindsProofs.v
theories/KindsRules.v
theories/KindsCubic.v
theories/KindsOnly.v
theories/KindsMono.v
theories/KindsQuad.v
theories/KindsAll.v
theories/KindsExact.v
theories/KindsArcs.v
theories/Props_Kinds.v
theories/NamesSpec.v
theories/NamesProofs.v
theories/NamesEmd.v
theories/Props_Names.v
theories/Props_MatlabInt.v
theories/Props_Matlab.v
theories/HeapImage.v
theories/HeapImageSpec.v
theories/HeapImageProofs.v
theories/Props_HeapImage.v
theories/KindsRange.v
theories/Props_Range.v
theories/ReturnsMatlab.v
theories/ReturnsEnsemble.v
theories/ReturnsCeemdan.v
theories/Props_Returns.v
theories/OscSpec.v
theories/Osc.v
theories/Props_Osc.v
theories/Pool.v
theories/PoolSpec.v
theories/PoolProofs.v
theories/PoolEnsemble.v
theories/Props_Pool.v
theories/UtilsMore.v
theories/Narrow.v
theories/NarrowProofs.v
theories/Float32.v
theories/Float32Proofs.v
theories/FloatAnyProofs.v
theories/Props_Narrow.v
theories/MirrorSpec.v
theories/EnsembleMirror.v
theories/Props_Mirror.v
theories/NegativeSpec.v
theories/ImageNegative.v
theories/Props_Negative.v
theories/EemdAsk.v
theories/AskSpec.v
theories/AskProofs.v
theories/Props_Ask.v
theories/SharedEmd.v
theories/SharedSpec.v
theories/SharedProofs.v
theories/Props_Shared.v
theories/Copies.v
theories/CopiesSpec.v
theories/CopiesProofs.v
theories/Props_Copies.v
theories/Threads.v
theories/ThreadsSpec.v
theories/ThreadsProofs.v
theories/Props_Threads.v
theories/StreamProofs.v
theories/Props_Stream.v
theories/PoolLife.v
theories/PoolLifeSpec.v
theories/PoolLifeProofs.v
theories/Props_PoolLife.v
theories/LocalSpec.v
theories/LocalProofs.v
theories/Props_Local.v
theories/NearSpec.v
theories/NearProofs.v
theories/Props_Near.v
theories/DriftSpec.v
theories/DriftProofs.v
theories/Props_Drift.v
theories/FaintSpec.v
theories/FaintProofs.v
theories/Props_Faint.v
theories/EemdThreads.v
theories/EemdThreadsSpec.v
theories/EemdThreadsProofs.v
theories/Props_EemdThreads.v
theories/CalmSpec.v
theories/CalmProofs.v
theories/Props_Calm.v
theories/Steps.v
theories/StepsProofs.v
theories/CeemdanThreads.v
theories/CeemdanThreadsSpec.v
theories/CeemdanThreadsProofs.v
theories/Props_CeemdanThreads.v
theories/JitThreads.v
theories/JitThreadsSpec.v
theories/Guarded.v
theories/JitThreadsProofs.v
theories/Props_JitThreads.v
theories/MatlabThreads.v
theories/MatlabThreadsSpec.v
theories/MatlabThreadsProofs.v
theories/Props_MatlabThreads.v
theories/GuardedLog.v
theories/JitThreadsLog.v
theories/ChecksLevelSpec.v
theories/ChecksLevel.v
theories/Props_ChecksLevel.v
theories/HeapVis.v
theories/HeapVisSpec.v
theories/HeapVisProofs.v
theories/Props_HeapVis.v
theories/VisUnitsSpec.v
theories/VisUnits.v
theories/VisSum.v
theories/Props_VisUnits.v
