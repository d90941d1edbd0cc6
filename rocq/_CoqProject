-Q theories Verif
theories/L_Adds.v
theories/L_Axes.v
theories/L_Balancer.v
theories/L_Base.v
theories/L_Boundary.v
theories/L_Calm.v
theories/L_Check.v
theories/L_Config.v
theories/L_Conserve.v
theories/L_Cuda.v
theories/L_CudaBc.v
theories/L_CudaCell.v
theories/L_CudaExchange.v
theories/L_CudaExchange2.v
theories/L_CudaFlux.v
theories/L_CudaFunctional.v
theories/L_Decomp.v
theories/L_Diffusion.v
theories/L_Dims.v
theories/L_Embed.v
theories/L_EmbedRecon.v
theories/L_Eno.v
theories/L_Entropy.v
theories/L_Euler.v
theories/L_EulerDeriv.v
theories/L_EulerEigen.v
theories/L_EulerEntropy.v
theories/L_EulerSym.v
theories/L_Exchange.v
theories/L_Flux.v
theories/L_FluxTop.v
theories/L_Forced.v
theories/L_Foreach.v
theories/L_Functional.v
theories/L_Init.v
theories/L_Loops.v
theories/L_Match.v
theories/L_Memory.v
theories/L_Monotone.v
theories/L_MonotoneRun.v
theories/L_Moves.v
theories/L_Omp.v
theories/L_OmpEno.v
theories/L_OmpFlux.v
theories/L_Output.v
theories/L_Parallel.v
theories/L_ParallelCheck.v
theories/L_ParallelDiffusion.v
theories/L_ParallelRun.v
theories/L_ParallelStep.v
theories/L_Positive.v
theories/L_Race.v
theories/L_Recon.v
theories/L_Related.v
theories/L_Samples.v
theories/L_Scalar.v
theories/L_Sim.v
theories/L_SimProps.v
theories/L_SimScale.v
theories/L_SimTop.v
theories/L_Stats.v
theories/L_StatsRun.v
theories/L_Storage.v
theories/L_Structure.v
theories/L_Sum.v
theories/L_SumDeriv.v
theories/L_SymScheme.v
theories/L_Symmetry.v
theories/L_System.v
theories/L_TecnoEno.v
theories/L_TecnoEno2.v
theories/L_TecnoSym.v
theories/L_Time.v
theories/L_TimeFloat.v
theories/L_TimeFull.v
theories/L_TimeInt.v
theories/L_Units.v
theories/L_UnitsEuler.v
theories/L_UnitsScalar.v
theories/L_Wenof2.v
theories/L_Writes.v
theories/M_Balancer.v
theories/M_Base.v
theories/M_Boundary.v
theories/M_Check.v
theories/M_Choice.v
theories/M_Combined.v
theories/M_Config.v
theories/M_Cuda.v
theories/M_CudaBc.v
theories/M_CudaCell.v
theories/M_CudaDiffusion.v
theories/M_CudaExchange.v
theories/M_CudaFunctional.v
theories/M_CudaMem.v
theories/M_Diffusion.v
theories/M_DiffusionConfig.v
theories/M_Dims.v
theories/M_Eno.v
theories/M_Euler.v
theories/M_EulerEigen.v
theories/M_Flux.v
theories/M_Foreach.v
theories/M_Functional.v
theories/M_Groups.v
theories/M_Init.v
theories/M_Legendre.v
theories/M_Memory.v
theories/M_Mpi.v
theories/M_Omp.v
theories/M_OmpEno.v
theories/M_Output.v
theories/M_Parallel.v
theories/M_ParallelCheck.v
theories/M_ParallelDiffusion.v
theories/M_Queue.v
theories/M_Race.v
theories/M_Recon.v
theories/M_Samples.v
theories/M_Scalar.v
theories/M_Sim.v
theories/M_StatConfig.v
theories/M_Stats.v
theories/M_Storage.v
theories/M_Structure.v
theories/M_TecnoEno.v
theories/M_TextCache.v
theories/M_Time.v
theories/M_TimeFloat.v
theories/M_Vec.v
theories/M_WriterConfig.v
theories/S_Boundary.v
theories/S_Check.v
theories/S_Choice.v
theories/S_Classes.v
theories/S_Config.v
theories/S_Cuda.v
theories/S_CudaExchange.v
theories/S_CudaFunctional.v
theories/S_Diffusion.v
theories/S_DiffusionConfig.v
theories/S_Dims.v
theories/S_Embed.v
theories/S_Entropy.v
theories/S_Euler.v
theories/S_EulerSym.v
theories/S_Flux.v
theories/S_Functional.v
theories/S_Groups.v
theories/S_Init.v
theories/S_Legendre.v
theories/S_Memory.v
theories/S_Monotone.v
theories/S_Mpi.v
theories/S_Output.v
theories/S_Parallel.v
theories/S_ParallelCheck.v
theories/S_ParallelDiffusion.v
theories/S_Positive.v
theories/S_Queue.v
theories/S_Race.v
theories/S_Recon.v
theories/S_Samples.v
theories/S_Scalar.v
theories/S_Sim.v
theories/S_StatConfig.v
theories/S_Stats.v
theories/S_Structure.v
theories/S_Sum.v
theories/S_Superposition.v
theories/S_Symmetry.v
theories/S_TecnoEno.v
theories/S_TextCache.v
theories/S_Time.v
theories/S_Units.v
theories/S_WriterConfig.v
theories/T_Balancer.v
theories/T_Boundary.v
theories/T_Check.v
theories/T_Choice.v
theories/T_Classes.v
theories/T_Coarsen.v
theories/T_Config.v
theories/T_Cuda.v
theories/T_CudaBc.v
theories/T_CudaCell.v
theories/T_CudaDiffusion.v
theories/T_CudaExchange.v
theories/T_CudaFunctional.v
theories/T_CudaMem.v
theories/T_Diffusion.v
theories/T_DiffusionConfig.v
theories/T_Dims.v
theories/T_Embed.v
theories/T_Eno.v
theories/T_Euler.v
theories/T_Flux.v
theories/T_Foreach.v
theories/T_Functional.v
theories/T_FunctionalStats.v
theories/T_Groups.v
theories/T_Init.v
theories/T_Legendre.v
theories/T_Memory.v
theories/T_Mirror.v
theories/T_Monotone.v
theories/T_Mpi.v
theories/T_Omp.v
theories/T_Output.v
theories/T_Parallel.v
theories/T_ParallelCheck.v
theories/T_ParallelDiffusion.v
theories/T_Positive.v
theories/T_Queue.v
theories/T_Race.v
theories/T_Recon.v
theories/T_Samples.v
theories/T_Scalar.v
theories/T_Sim.v
theories/T_StatConfig.v
theories/T_Stats.v
theories/T_StatsFloat.v
theories/T_Structure.v
theories/T_Superposition.v
theories/T_Symmetry.v
theories/T_TecnoEno.v
theories/T_TextCache.v
theories/T_Time.v
theories/T_TimeFloat.v
theories/T_TimeFunctional.v
theories/T_UniformFloat.v
theories/T_Units.v
theories/T_Variation.v
theories/T_WriterConfig.v
