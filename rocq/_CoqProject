-Q theories Verif
theories/Result.v
theories/Formula.v
theories/Simplify.v
theories/SimplifyProofs.v
theories/Diff.v
theories/Termination.v
theories/DiffTermination.v
theories/NoError.v
theories/Build.v
theories/BuildProofs.v
theories/FormulaSpec.v
theories/C01Proofs.v
theories/C01.v
theories/C02Proofs.v
theories/C02.v
theories/Calculus.v
theories/GradSpec.v
theories/ScalarDeriv.v
theories/Tangent.v
theories/DiffRules.v
theories/Closure.v
theories/Adjoint.v
theories/DiffProofs.v
theories/C03Proofs.v
theories/C03.v
theories/C04Proofs.v
theories/C04.v
theories/KernelSum.v
theories/KernelSumSpec.v
theories/C05Proofs.v
theories/C05.v
theories/XReal.v
theories/Reductions.v
theories/CpuReduc.v
theories/SumSpec.v
theories/Postprocess.v
theories/LseSpec.v
theories/ReductionSpec.v
theories/RedLoops.v
theories/C06Proofs.v
theories/C06.v
theories/C07Proofs.v
theories/C07.v
theories/C08Proofs.v
theories/C08.v
theories/C09Proofs.v
theories/C09.v
theories/C10Proofs.v
theories/C10.v
theories/C11Proofs.v
theories/C11.v
theories/Loader.v
theories/CpuConv.v
theories/CpuConvSpec.v
theories/LoaderProofs.v
theories/C12Proofs.v
theories/C12.v
theories/GpuConv.v
theories/GpuProofs.v
theories/C13Proofs.v
theories/C13.v
theories/C14Proofs.v
theories/C14.v
theories/RangesConv.v
theories/RangesSpec.v
theories/RangesProofs.v
theories/RangesGpu.v
theories/C15Proofs.v
theories/C15.v
theories/C16Proofs.v
theories/C16.v
theories/Clusters.v
theories/ClusterSpec.v
theories/C17Proofs.v
theories/C17.v
theories/C18Proofs.v
theories/C18.v
theories/C19Proofs.v
theories/C19.v
theories/Chunks.v
theories/ChunkSpec.v
theories/ChunkProofs.v
theories/C20Proofs.v
theories/C20.v
theories/FinalChunks.v
theories/C21Proofs.v
theories/C21.v
theories/Keys.v
theories/KeySpec.v
theories/C22Proofs.v
theories/C22.v
theories/History.v
theories/HistorySpec.v
theories/C23Proofs.v
theories/C23.v
theories/Folder.v
theories/FolderSpec.v
theories/C25Proofs.v
theories/C25.v
theories/C24Proofs.v
theories/C24Writers.v
theories/C24.v
theories/Aliases.v
theories/AliasSpec.v
theories/C26Proofs.v
theories/C26.v
theories/Broadcast.v
theories/BroadcastSpec.v
theories/C28Proofs.v
theories/C28.v
theories/LazyTensors.v
theories/LazySpec.v
theories/LazyProofs.v
theories/C27Proofs.v
theories/C27.v
theories/TransposeSpec.v
theories/C29Proofs.v
theories/C29.v
theories/Solver.v
theories/SolverSpec.v
theories/C30Proofs.v
theories/C30Pre.v
theories/C30.v
theories/Half2.v
theories/Half2Spec.v
theories/C31Proofs.v
theories/C31.v
theories/HalfRanges.v
theories/C32Proofs.v
theories/C32.v
theories/ArgIndices.v
theories/C33Proofs.v
theories/C33.v
theories/Layout.v
theories/LayoutSpec.v
theories/C34Proofs.v
theories/C34.v
theories/Factor.v
theories/FactorSpec.v
theories/FactorFm.v
theories/C35Proofs.v
theories/C35.v
theories/Tensordot.v
theories/TensordotSpec.v
theories/C36Proofs.v
theories/C36.v
theories/Complex.v
theories/ComplexSpec.v
theories/C37Proofs.v
theories/C37Grad.v
theories/C37.v
theories/C38Proofs.v
theories/C38.v
theories/ArgCheck.v
theories/ArgCheckSpec.v
theories/C39Proofs.v
theories/C39.v
theories/LinOps.v
theories/LinOpsSpec.v
theories/Degree.v
theories/DegreeDiff.v
theories/C40Proofs.v
theories/TraceProofs.v
theories/LinOpsMain.v
theories/LinOpsCases.v
theories/C40More.v
theories/C40.v
theories/BackShape.v
theories/BackShapeSpec.v
theories/C41Proofs.v
theories/C41.v
theories/Methods.v
theories/MethodsSpec.v
theories/C42Proofs.v
theories/DotProofs.v
theories/C42More.v
theories/C42.v
theories/BSpline.v
theories/BSplineSpec.v
theories/C43Proofs.v
theories/C43.v
theories/SoftDTW.v
theories/SoftDTWSpec.v
theories/C44Proofs.v
theories/C44Back.v
theories/C44Code.v
theories/C44Main.v
theories/C44.v
theories/Options.v
theories/OptionsSpec.v
theories/C45Proofs.v
theories/C45Lazy.v
theories/C45.v
theories/RedGrad.v
theories/RedGradSpec.v
theories/C46Proofs.v
theories/C46.v
theories/CodeGen.v
theories/CSem.v
theories/CodeGenSpec.v
theories/C47Proofs.v
theories/C47Ops.v
theories/C47Main.v
theories/C47Cases.v
theories/C47.v
theories/C47Gen.v
theories/KernelCode.v
theories/KernelSem.v
theories/KernelCodeSpec.v
theories/C48Proofs.v
theories/C48Row.v
theories/C48Launch.v
theories/C48Main.v
theories/C48.v
theories/KernelSolve.v
theories/KernelSolveSpec.v
theories/C49Lin.v
theories/C49Proofs.v
theories/C49Main.v
theories/C49.v
theories/LazySolve.v
theories/C50Proofs.v
theories/C50.v
theories/Centroids.v
theories/CentroidSpec.v
theories/C51Proofs.v
theories/C51.v
theories/SumRounding.v
theories/SumRoundingSpec.v
theories/C52Proofs.v
theories/C52.v
theories/RangesChunks.v
theories/RangesChunkSpec.v
theories/C53Proofs.v
theories/C53.v
theories/RangesFinal.v
theories/RangesFinalSpec.v
theories/C54Proofs.v
theories/C54.v
theories/PyRead.v
theories/PyReadSpec.v
theories/PyReadProofs.v
theories/C55Proofs.v
theories/C55More.v
theories/C55.v
theories/PrintTree.v
theories/PrintSpec.v
theories/C56Proofs.v
theories/C56More.v
theories/C56.v
theories/RedText.v
theories/RedTextSpec.v
theories/C57Proofs.v
theories/C57.v
theories/DiffClosure.v
theories/BackText.v
theories/BackSpec.v
theories/ReadArgs.v
theories/ReadSaved.v
theories/C58Proofs.v
theories/C58.v
theories/GradReadySpec.v
theories/GradReady.v
theories/C59Proofs.v
theories/C59.v
theories/GpuConfig.v
theories/GpuConfigSpec.v
theories/C60Proofs.v
theories/C60.v
theories/GenericOps.v
theories/GenericOpsSpec.v
theories/GenericRead.v
theories/C61Proofs.v
theories/C61.v
theories/GpuMemory.v
theories/GpuMemorySpec.v
theories/C62Proofs.v
theories/C62Load.v
theories/C62Launch.v
theories/C62Main.v
theories/C62.v
theories/Vmap.v
theories/VmapSpec.v
theories/C63Proofs.v
theories/C63.v
theories/RKeops.v
theories/RKeopsSpec.v
theories/C64Proofs.v
theories/C64Grad.v
theories/C64Cases.v
theories/C64.v
theories/ReadLast.v
theories/C58Written.v
theories/RLazy.v
theories/RLazySpec.v
theories/C65Names.v
theories/C65Args.v
theories/C65Read.v
theories/C65Proofs.v
theories/C65Cases.v
theories/C65.v
theories/RMethods.v
theories/RMethodsSpec.v
theories/C66Proofs.v
theories/C66Cases.v
theories/C66.v
theories/RReduce.v
theories/RReduceSpec.v
theories/C67Proofs.v
theories/C67Softmax.v
theories/C67Accept.v
theories/C67Cases.v
theories/C67.v
