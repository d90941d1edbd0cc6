# Formal model of alsvinn: design

The code under study is the C++ in `/repo` (read as text, never built or run).
The model is in `rocq/theories` (Rocq/Coq 8.16.1, logical name `Verif`).

## How the model is organised

* `M_*.v` are model files: small total Gallina functions, one per C++
  function, each with a comment citing file and lines and saying what is
  simplified.
* `S_*.v` are specifications: what a property means, written without using the
  helpers of the model.
* `L_*.v` hold the lemmas and proofs.
* `T_*.v` hold only the property theorems (`exact lemma`), `Print
  Assumptions`, and `Example`s showing that the hypotheses can be met.

Conventions:

* Memory is an array of known length; a load or store outside it yields the
  distinct outcome `UB`; C++ exceptions are the distinct outcome `Throw`.
  Theorems conclude `= Ok ...`, so absence of out-of-bounds accesses is part
  of each statement.
* Loop and index arithmetic is over `Z` (unbounded) unless the property is
  about wrap-around, in which case the wrap is explicit.
* Cell values are polymorphic where the property does not depend on
  arithmetic; otherwise they are Coq's axiomatic reals `R` (exact arithmetic,
  rounding not modelled). Properties about rounding use Flocq.
* When the full property is false of the model, the file contains a theorem
  named `..._refuted` with a witness, and a theorem `..._partial` for the part
  that does hold, with the missing part described.

## Plan per property

| id | what is modelled | how it is proved / why not | outcome |
|----|----|----|----|
| C01 | `calculateIndex`, `for_each_cell_index` | the list of visited indices is duplicate free and equals the box; arithmetic | proved |
| C02 | `BoundaryCPU` sweeps with `Periodic` | loop invariants on the array model, induction over sweeps | proved |
| C03 | same with `Neumann` | same; refutation below the minimal interior | proved |
| C04 | `computeNetFlux`, `computeFlux` over arrays | loop invariants give the closed form; telescoping sums over R | proved |
| C05 | `Simulator::performStep`, four integrators | C04 plus linearity, induction on steps | proved |
| C06 | as C05 | closed form of the net flux on constant data | proved |
| C07 | region arithmetic of `ConservedSystem` | interval arithmetic, exact threshold on N | proved |
| C08 | accesses of both threads of the overlapped exchange; race = undefined | disjoint footprints for reconstructions that respect the region; refuted for `none` and `weno3` | partial |
| C09 | four `performSubstep` over a real vector space of cell functions | algebra; stage formulas against Butcher tableaux | proved |
| C10 | `performSubstep` scaling | refuted with dx <> dy; equality when dx = dy | partial |
| C11 | `computeTimestep`, `adjustTimestep` | real arithmetic, induction on the adjuster list | proved |
| C12 | `FixedIntervalWriter`, simulator time loop | invariant over the history of steps | proved |
| C13 | same with a start time | refuted; partial without `writeInitialTimestep` | partial |
| C14 | time loop | refuted; partial when an adjuster targets the end time | partial |
| C15 | the same step with Flocq rounding | refuted by a concrete binary64 instance; from the second save on by Sterbenz | partial |
| C16 | queue writer as a two-thread transition system (mutex and condition variables) | invariants over all schedules; refuted for queue length above 1 | partial |
| C17 | `TimeIntegratedWriter` as a state machine | invariant over histories; refuted for constants | partial |
| C18 | `CartesianDecomposition`, rank conversion | div/mod arithmetic; refuted for one-sided periodicity | partial |
| C19 | `CartesianCellExchanger` with arbitrary delivery order | permutation-invariant effect on face ghosts | proved |
| C20 | the sets of sends and receives | matching is a bijection, arithmetic on tags and neighbours | proved |
| C21 | composition of C18-C20 with the flux model | simulation relation between block and global arrays; refuted for one cell wide blocks | partial |
| C22 | `SimpleLoadBalancer`, `MPI_Comm_split` by its contract | div/mod arithmetic, counting | proved |
| C23, C24 | `STLMersenne` counter, `SampleGenerator` | counter invariant; refuted with two parameters | partial |
| C25 | `Uniform`, the parameter table set up by `Setup` | refuted for the configuration; distribution itself over R and in binary64 | partial |
| C26 | `Uniform1D` | arithmetic; refuted for a non-zero start index | partial |
| C27, C28 | statistics accumulation, reduce, finalise | sums over permutations/partitions; binary64 refutation of non-negativity | partial, proved |
| C29, C30 | accumulation loops of these statistics | refuted with two samples; closed form of what is computed; proved for every functional keeping the contract | partial |
| C31 | cube loops | the list of offsets is a permutation of the spec, with count | proved |
| C32 | `FixedIntervalStatistics` | as C12, over consecutive samples | partial |
| C33 | all CPU numerical fluxes | algebra; refuted for linear Roe and sonic HLL | partial |
| C34 | Godunov fluxes | case analysis, monotonicity | proved |
| C35 | first-order scheme as a whole program | monotone scheme argument on the array model, induction on steps; refuted for unequal cell lengths and Buckley-Leverett | partial |
| C36 | entropy functions, scalar entropy conservative flux | stdlib `derivable_pt_lim`, algebra | proved |
| C37 | combined fluxes | summation by parts | proved |
| C38 | diffusion operator (tecno reconstruction `none`) | quadratic forms, summation by parts; refuted with one ghost layer | partial |
| C39 | Euler conversions | field arithmetic | proved |
| C40 | eigen-structure | directional derivatives, field arithmetic; refuted in directions 1 and 2 | partial |
| C41 | `WENOF2` | real arithmetic with bounds | proved |
| C42 | MC, MM, minmod | case analysis | proved |
| C43 | ENO | polynomial identities; refuted stencil rule at orders 3 and 4 | partial |
| C44 | WENO | positivity, polynomial identities | proved |
| C45 | `interpolate` | loop invariant with exact result; refuted in 3D and with ghost cells | partial |
| C46 | `legendre` | polynomial algebra, induction; refuted from degree 2 on | partial |
| C47 | `getTotalVariation` | loop invariant, sums; refuted for the isotropic 2D version | partial |
| C48 | element-wise loops with explicit 32 bit wrap-around | loop invariant; refuted from 2^31 elements on | partial |
| C49 | `copyInternalCells` | loop invariant; refuted for a too small buffer | partial |
| C50 | `performStep`, `checkConstraints` over binary64 | case analysis over values with NaN and infinities | proved |
| C51 | coarse-graining writer | state machine; refuted on overlapping windows | partial |
| C52 | structure statistics `structure_basic`, `structure_2pt` | loop closed forms; refuted for two points and boundary side | partial |
| C53 | wave speeds of scalar fluxes | mean value / monotonicity; refuted for Buckley-Leverett | partial |
| C54, C55 | `Tecno1` flux, `tecno_utils` | field arithmetic with logarithmic means; refuted in 3D, refuted near-consistency | partial |
| C56 | combined flux + diffusion as one operator | C37/C54 + C38 | partial |
| C57 | cell midpoints of blocks | arithmetic on grids | proved |
| C58 | whole decomposed runs in lockstep | simulation relation by induction over steps and stages | proved |
| C59 | bounded-variation statistic | as C27 with C47 | partial |
| C60 | structure-cube statistic | loop closed form over `int` products; refuted on overflow | partial |
| C61 | all CPU functionals | loop closed forms against the contract of Functional.hpp; refuted for the structure functionals | partial |
| C62 | `TimeIntegratedFunctionalStatistics` | invariant over samples and steps | partial |
| C63 | `TimeIntegrationFunctional`, `IntervalFunctionalWriter` | invariant over histories | partial |
| C64 | scratch arrays of `ENOCPU` | refinement of the pointwise reconstruction for any earlier contents | proved |
| C65 | diffusion with `eno2`-`eno4` | closed form, sign property; refuted for the requested ghost cells, orders 3, 4 and direction y | partial |
| C66 | OpenMP loops as interleaved accesses, reductions in any order | diamond property for independent iterations; each loop shown independent and its one-thread run simulates the sequential model | proved |
| C67 | NetCDF writers: sizes, start/count of each process, order of the data | each process's slab computed; blocks partition the grid; refuted for uneven grids, axis names, thin blocks | partial |
| C68 | HDF5 writers: sizes, offsets, order of the data | same, with the later writes covering the earlier ones; refuted for decomposed samples | partial |
| C69 | names, groups, new files, batches and collective writes of a UQ run | names injective (decimal strings); invariant over snapshots and batches, with the balancer of C22; refuted for unequal numbers of snapshots | partial |
| C70 | launches of the kernels of the right hand side as parallel loops with barriers | threads own the cells they write, so one outcome (as C66); refinement of the loops of the CPU; refuted when the diffusion operator asks for more ghost cells than the flux | partial |
| C71 | launches of the boundary kernels, surplus threads included | threads as lists of copies; lenient outcomes (equal stores tolerated) unique; refinement of the sweeps of C02; strict absence of races refuted | partial |
| C72 | check and wave speeds on the GPU: one thread per cell, reduction in any order | outcomes unique (threads only read); maximum of the answers = some cell passes; refuted by a volume with one bad cell | partial |
| C73 | element-wise kernels and total variation on the GPU, index arithmetic of size_t included | outcomes unique (threads own their element) and equal to the host's (C47, C48); refuted in one dimension, where every call reads outside | partial |
| C74 | the two kernels of the diffusion operator on the GPU, with the view of the wrong volume | refuted: a race in every run; all finished runs of Burgers, in any order, add a closed form that does not sum to zero | partial |
| C75 | the exchanger between GPUs: its kernels, and runs of exchanges as a transition system in which MPI reads send buffers any time after the post | invariant over all executions: exchanges followed by a reduction deliver (all with ForwardEuler); refuted for the Runge-Kutta integrators, where the next extraction overwrites a buffer not yet sent; extraction race free, insertion races at edges | partial |
| C76 | parameters, the names a Python program sees, evaluation at cell centres or init_global, conversion to conserved variables, first boundary exchange; samples one after the other; blocks | first state for any program by induction over the visited cells; module contents by lookup lemmas; blocks agree with the serial state for programs without indices, refuted for those with; refuted for parameters named like an export of math or numpy (gamma of the Euler equations) | partial |
| C77 | the names of the configuration, the factories for flux and reconstruction (CPU), ghost width, fresh work arrays | acceptance by lookup lemmas; compatible exactly for the suited pairs, then C04; closed form of the right-hand side of wide fluxes in any number of dimensions; refuted: eight Burgers pairs read cells of `left` that the reconstruction never wrote (initial zeros, or values of another direction: the result depends on earlier computations), and wide fluxes see left values only, which breaks the mirror symmetry | partial |
| C78 | runs of the serial simulator (M_Sim with all fluxes and reconstructions) on a grid and on the grid with two axes exchanged | relation between the two runs kept by every step (right-hand side, wave speeds, ghost cells, check), instances for each flux and reconstruction; refuted for cells whose length along the first axis changes (dt / dx of the x axis is used for all directions) and for the Tecno fluxes of Euler<3> along z | partial |
| C79 | the same for a reflected grid | mirror lemmas for each flux and reconstruction; refuted at run level: HLL returns zero when its left speed is zero, ENO takes the right stencil in a tie; wide fluxes with a reconstruction: C77_mirror_refuted | partial |
| C80 | the same for a grid rotated by any number of cells | all fluxes and reconstructions at once; corollary: data that do not depend on an axis | proved |
| C81 | the flux object made for a grid and the fluxes of the Euler equations with checked component reads (M_Dims) | one lemma per flux: inside the vector equal to M_Euler, outside undefined; the right-hand side follows by induction over the loops; refuted: euler1 on a flat grid is accepted | partial |
| C82 | two runs of M_Sim with M_Euler for different numbers of components | padding the momentum commutes with every flux and reconstruction, hence with the run (relabel_runs) | proved |
| C83 | two runs of M_Sim at different scales | multiplication commutes with HLL, HLL3, the central flux, ENO and the limiters; Tecno for one face between positive states; refuted at run level for WENO2, whose weights contain 1e-8 | partial |
| C84 | M_ParallelCheck: M_Parallel with the check of every process after every step | acceptance from C58 and the filled ghost cells; the converse on a line by following the unfilled ghost cells; a gas at rest in three dimensions as counterexample | partial |
| C85 | M_StatConfig: Setup::createStatistics, the objects it makes, the samples of a process one after the other | refinement to the observers of M_Time, then C32; windows, missing children and 0 saves refuted | partial |
| C86 | M_Euler's HLL flux in serial_run of M_Sim, with the check of M_Check in exact arithmetic | the update of a cell as a sum of nonnegative multiples of admissible states, cell by cell and direction by direction; refuted on cells longer in y than in x | partial |
| C87 | M_ParallelDiffusion: M_Parallel with the diffusion operators of M_Diffusion and M_TecnoEno after the fluxes | the operator as a term on the star stencil, then the induction of C58; the operator with one ghost layer computed on two blocks as counterexample | partial |
| C88 | full_run of M_Time: M_Sim with the observers; M_Euler, M_Scalar, M_Recon | fluxes and speeds scale with the velocities, hence steps with the times and each Runge-Kutta stage with them; the coarse graining writer, which takes a cell length for a time, as counterexample | partial |
| C89 | M_CudaFunctional: kernels of the functionals and statistics as parallel loops and reductions | each kernel reads only what no thread writes, so every schedule stores what the CPU loop computes; the doubly counted ghost cells, the polynomials from degree 2 and the parameters read on one side only as counterexamples | partial |
| C90 | serial_run of M_Sim with the linear equation of M_Scalar | two runs are one run of a system of two equations, seen through its components and their combination; induction over the samples; slopes that the parts do not have, negative states with roe as counterexamples | partial |
| C91 | M_TextCache: the cache, the setup as far as it reads files, the keys of the report | the cache only grows and never changes an entry (induction over the requests); the replaced characters read back from the key; counterexamples: two names with one key, two spellings, two processes, a configuration removed between samples | partial |
| C92 | M_WriterConfig: createWriter, createFunctionals, what reaches the files | the objects with an interval are those of M_Time, whose save times are known for any mixture; refuted by the combinations of children that create something else: a window without snapshots, coarse saves, functionals with writeInitialTimestep, no saves, windows that end too late, and the average of a constant for every window | partial |
| C93 | M_Choice: readCFLNumber, readIntegrator, createIntegrator, with the scheme of M_Config | the names evaluate to a scheme, number and integrator to which the theorem of C35 applies; counterexamples: one step of Buckley-Leverett, a CFL number 0 (induction over the steps), a blank before auto | partial |
| C94 | M_DiffusionConfig: createDiffusion, both factories, the ghost layers of the system | case analysis on the names against a relation; the layers of an accepted scheme meet the hypothesis of C65; counterexample of C65 placed in an accepted configuration | partial |

Not expressible here: the CUDA runtime and hardware below the level of
threads, memory accesses and launches, the bytes of the HDF5/NetCDF formats,
the semantics of Python, performance.

## Trusted base

What has to be believed for the theorems to say something about the code:

1. **Coq's kernel** (8.16.1), including `vm_compute`, which a few proofs about
   concrete binary64 numbers use. No kernel check is switched off, there are no
   axioms of our own, no plugins, no admitted goals.
2. **The axioms of the standard library** listed in the table at the end.
   They come from the construction of the reals (`sig_forall_dec`,
   `sig_not_dec`), functional extensionality, and classical logic
   (`Classical_Prop.classic`, pulled in by stdlib analysis and by Flocq).
3. **Flocq 4.1.0** (a compiled library, checked by the same kernel) supplies the
   definition of binary64 numbers and of rounding. It adds no axioms.
4. **Our reading of the C++**, recorded in the comment above every definition
   in `M_*.v` and in the two lists below.

### Semantic assumptions of the model

* *Numbers.* `real` is exact (`R`) except in `M_Check`, `M_TimeFloat`,
  `T_StatsFloat`, `T_UniformFloat`, which use binary64 with rounding to nearest
  even. A theorem over `R` says nothing about rounding errors.
* *Integers.* Index arithmetic is over `Z`. The wrap-around of `size_t` is
  explicit in `M_Foreach`, the conversion to 32 bit `int` in `M_Sim`, `M_Memory`
  and `M_Stats`, undefined signed overflow in `M_Structure`, `M_Samples` (long)
  and `M_Balancer`; elsewhere overflow is assumed not to occur.
* *Memory.* An array has a length and contents; any access outside it is
  `UB`. Freshly allocated or reused scratch memory has arbitrary contents, over
  which the theorems quantify. A volume is one array of cell
  records instead of one array per variable. `M_Parallel` and `M_Storage` relate the two
  views (area `v` of a volume is entry `v` of the cell records) where messages
  are sent area by area.
* *Aliasing.* Distinct volumes of the C++ are distinct arrays. The places where
  the C++ shares a volume (queue slots in `QueueWriter`, the output volume of
  the integrators) are modelled as shared.
* *Exceptions.* `THROW` ends the run with the outcome `Throw`.
* *Virtual calls, templates, boost::fusion.* Resolved by hand to the concrete
  class named in the comment; the fusion lists are read as plain lists.
* *OpenMP.* The models read a `parallel for` as the sequential loop. C66
  justifies this: `M_Omp` and `M_OmpEno` give the loops as sets of iterations
  whose accesses interleave in any way, with a barrier at the end and data races
  undefined, and the theorems show that only the sequential outcome is possible.
  Interleaving of accesses is the right notion only for race-free programs, which
  is what is shown. `omp simd` within an iteration is the sequential loop.
* *Threads.* `M_Race` and `M_Queue` use interleavings of atomic steps; mutexes
  and condition variables have their textbook meaning (a waiting thread goes on
  only when its predicate holds); a data race is undefined behaviour.
* *MPI.* Non-blocking messages match by (communicator, source, destination,
  tag) in order, delivery is element-wise in any interleaving;
  `MPI_Comm_split` orders by key and then by old rank; `MPI_Reduce` combines in
  any order; the processes of a decomposed run advance in lockstep between
  collective calls. Failing MPI calls are not modelled.
* *Random numbers.* `std::mt19937_64` is a fixed sequence; the model tracks the
  position in it. `uniform_real_distribution` uses one output per real in [0,1).
* *boost.* `boost::math::legendre_p` is an arbitrary function of degree and
  argument in `M_Functional`; `boost::multi_array` is an array.
* *Configuration.* Where a theorem speaks about what "the configuration" can
  produce, the relevant lines of `SimulatorSetup.cpp`/`Setup.cpp` are modelled;
  XML parsing itself is not.

### Modelled

Every file is under `/repo`; the comments in the model cite the lines.

| area | files |
|------|-------|
| traversal, volumes, memory | `alsfvm/include/alsfvm/volume/{volume_foreach,interpolate}.hpp`, `memory/View.hpp`, `src/volume/Volume.cpp`, `src/memory/{Memory,HostMemory}.cpp` (element-wise operations, total variation, copies) |
| boundary | `src/boundary/{BoundaryCPU,BoundaryFactory}.cpp`, `boundary/{Neumann,Periodic,ValueAtBoundary,Type}.hpp` |
| grid | `src/grid/Grid.cpp` |
| flux computation | `src/numflux/NumericalFluxCPU.cpp`, `numflux/numflux_util.hpp`, `src/simulator/ConservedSystem.cpp` |
| fluxes | every flux of `numerical_flux_list.hpp`: `Central`, `Rusanov`, `ScalarEntropyConservativeFlux`, `TecnoCombined4`, `TecnoCombined6`, Godunov, Roe, Upwind, `HLL`, `HLL3`, `Tecno1`, `tecno_utils` |
| equations | `Burgers.hpp`, `BuckleyLeverett.hpp`, `Cubic.hpp`, `Linear.hpp`, `Euler.hpp` with their variable structs, `src/equation/CPUCellComputer.cpp`, `src/equation/euler/Euler.cpp` |
| reconstruction | `ReconstructionCPU`, `ENOCPU`, `WENOCPU`, `NoReconstruction`, `MC`, `MM`, `WENO2`, `WENOF2`, coefficients, factory; `tecno/{ENOCPU,NoReconstruction,ReconstructionFactory}.cpp` |
| diffusion | `src/diffusion/{TecnoDiffusionCPU,DiffusionFactory,NoDiffusion}.cpp` (the factory for the platform cpu, C94), `RoeMatrix.hpp`, `RusanovMatrix.hpp` |
| time stepping | `src/integrator/{Integrator,ForwardEuler,RungeKutta2,RungeKutta3,RungeKutta4}.cpp`, `src/simulator/{Simulator,TimestepInformation}.cpp` |
| choice of CFL number and integrator | `readCFLNumber`, `readIntegrator` of `src/config/SimulatorSetup.cpp`, `src/integrator/IntegratorFactory.cpp`; `boost::lexical_cast<real>` is a parameter (C93) |
| writers | `src/io/{FixedIntervalWriter,CoarseGrainingIntervalWriter,TimeIntegratedWriter,QueueWriter}.cpp` (when and what they pass to the inner writer), `{NetCDFWriter,NetCDFMPIWriter,HDF5Writer,HDF5MPIWriter,io_utils}.cpp` (names, sizes, hyperslabs, values), `alsuq/src/{io/MPIWriterFactory,run/FiniteVolumeSimulatorCreator}.cpp` |
| functionals | all CPU functionals in `src/functional` |
| CUDA | `src/numflux/NumericalFluxCUDA.cu`, `src/reconstruction/{ReconstructionCUDA,NoReconstructionCUDA,ENOCUDA}.cu`, `src/boundary/BoundaryCUDA.cu`, `src/equation/CUDACellComputer.cu` (check, wave speeds), `src/cuda/{CudaMemory.cpp,vector_operations.cu}` (arithmetic, total variation), `src/diffusion/TecnoDiffusionCUDA.cu` (without reconstruction), `src/mpi/CudaCartesianCellExchanger.cu`, `src/functional/{Identity,LegendrePointWise,LogEntropy,StructureCube}CUDA.cu`, `functional/structure_common_cuda.hpp`, `alsuq/src/stats/Structure{Basic,Cube}CUDA.cu` (C89; the scratch buffers are those of one call) |
| MPI | `src/mpi/{CartesianCellExchanger,CellExchanger,MpiIndexType,RequestContainer}.cpp`, `mpi/cartesian/*.hpp`, `src/mpi/domain/CartesianDecomposition.cpp` |
| initial data | `src/init/{PythonInitialData,Parameters}.cpp`, `Simulator::setInitialValue`, `SimulatorSetup::readParameters` (C76) |
| configuration | `src/numflux/NumericalFluxFactory.cpp`, `src/reconstruction/ReconstructionFactory.cpp` for the CPU (C77); the parts of `src/config/SimulatorSetup.cpp` and `alsuq/src/config/Setup.cpp` named in the comments |
| UQ | `alsuq/src/{run/Runner,mpi/SimpleLoadBalancer,mpi/Configuration,samples/SampleGenerator,generator/STLMersenne}.cpp`, `distribution/{Uniform,Uniform1D,DistributionFactory,Parameters}.cpp`, all CPU statistics in `stats`, `stats/TimeIntegratedWriter.cpp`, `Setup::createStatistics` as far as times are concerned (C85) |
| outputs | `SimulatorSetup::createWriter`, `createFunctionals` as far as times and values of one cell are concerned (C92); a functional is taken to be proportional to its weight there |
| input files | `alsutils/src/{io/TextFileCache,make_basic_report}.cpp` (names and texts; the operating system's files are a function of the file, changed at will between operations), reading of files in `SimulatorSetup.cpp` (C91) |
| utilities | `alsutils`: `vec1/2/3.hpp`, `mat.hpp`, `math/{FastPower,legendre}.hpp`, `mpi/Configuration`, `parameters/Parameters.cpp` |

### Not modelled

* of CUDA: the hardware and runtime (a launch is a parallel loop over its
  threads with a barrier after it, C70; a launch with an empty or negative box
  stops the model), texture caches, device selection, streams (the launches of
  the exchanger on several streams are one parallel loop, C75), the arrays of
  divided differences of `ENOCUDA.cu`, the files not in the table above;
* of the file output: attributes, dimension variables, the variable `time`, run
  reports, timers, logging, the bytes of the formats (modelled are names, sizes,
  hyperslabs and values: C67-C69, and the input files in the report: C91; the contracts of `nc_put_vara`,
  `ncmpi_put_vara_all`, `ncmpi_def_var` and `H5Dwrite` are assumed);
  `DLLWriter`, `PythonScript`, `addons/`, `library_examples/`;
* the Python interpreter: the meaning of an initial data program is an arbitrary function of
  the names it can see and of the cell (C76); what a program defines in the main module
  is not carried to the next sample, `init/python_addons` are part of the exported names;
* XML parsing, command line parsing, the factories' error messages except
  where a property names them;
* `Normal` and DLL distributions;
* `LaxFriedrichs.hpp` (not registered in the flux list);
* runs with the Tecno fluxes in another unit of time (C88); the ENO diffusion in decomposed runs in more than one dimension (C87); in C84, processes that wait for ever for one that has thrown.

### Axioms per theorem

What `Print Assumptions` lists (the `T_*.v` files print it during the build).

**Closed under the global context** (52 theorems):

`C01_for_each_visits_box_once`, `C01_index_bijective`, `C01_midpoints_match_cells`, `C01_neighbour_traversal`, `C02_periodic_boundary`, `C02_periodic_boundary_mpi_sides`, `C03_neumann_boundary`, `C03_neumann_boundary_mpi_sides`, `C16_counts`, `C16_latest_delivered`, `C16_length_one_partial`, `C16_length_zero_blocks`, `C16_no_deadlock`, `C16_refuted`, `C16_terminates`, `C18_configurations_are_paired`, `C18_rank_index_wraps`, `C18_ranks_and_coordinates`, `C22_every_sample_once`, `C22_ranks_grouped`, `C22_rejects_process_count`, `C22_rejects_sample_count`, `C22_samples_partitioned`, `C22_spatial_group_agrees`, `C25_factory_reads_bounds`, `C27_load_balanced`, `C31_each_offset_once`, `C49_copies_box_partial`, `C49_copies_interior_partial`, `C49_small_buffer`, `C69_balanced_run_partial`, `C69_different_steps`, `C69_repeated_sample`, `C69_sample_files_partial`, `C73_size_mismatch`, `C75_extract`, `C75_insert`, `C75_insert_race`, `C76_configured_parameters`, `C76_parameters_partial`, `C76_samples_independent`, `C91_first_text`, `C91_plain_names`, `C91_processes_refuted`, `C91_report_partial`, `C91_report_refuted`, `C91_same_text`, `C91_samples_partial`, `C91_samples_refuted`, `C91_spellings_refuted`, `C94_rejected`, `C94_selected`

**`ClassicalDedekindReals.sig_forall_dec`** (39 theorems):

`C09_start_is_ready`, `C18_blocks_partition`, `C18_neighbours`, `C18_neighbours_symmetric`, `C18_one_sided_periodicity_refuted`, `C18_rejects_uneven`, `C19_exchange`, `C19_exchange_completes`, `C20_every_message_matched`, `C20_faces_meet`, `C20_no_deadlock`, `C20_partners_exist`, `C21_always_possible`, `C23_many_parameters`, `C23_refuted`, `C24_refuted`, `C24_within_process`, `C48_add_short_refuted`, `C48_large_areas`, `C48_linear_combination`, `C49_buffer_overrun_refuted`, `C65_fresh_scratch_fits`, `C67_every_grid_refuted`, `C67_parallel_file_partial`, `C67_same_file_partial`, `C67_serial_file_partial`, `C67_uneven_grid_throws`, `C68_last_block`, `C68_other_blocks_lost`, `C68_serial_file_partial`, `C69_different_steps_refuted`, `C69_every_run_refuted`, `C69_more_steps_later_refuted`, `C70_speed_buffer`, `C75_exchange_partial`, `C75_exchange_refuted`, `C75_forward_euler`, `C75_no_deadlock`, `C76_snippet`

**`FunctionalExtensionality.functional_extensionality_dep`** (8 theorems):

`C66_independent_iterations`, `C71_boundary`, `C71_boundary_serial`, `C71_no_race_refuted`, `C71_race`, `C72_check_some`, `C72_scalar_refuted`, `C73_elementwise`

**`ClassicalDedekindReals.sig_forall_dec`, `FunctionalExtensionality.functional_extensionality_dep`** (215 theorems):

`C04_boundary_balance`, `C04_net_flux_sums_to_zero`, `C04_system_sums_to_zero`, `C05_run_conserves`, `C06_uniform_preserved`, `C07_split_closed_form`, `C07_split_equals_whole`, `C08_eno_no_race`, `C08_interleaving_flux`, `C08_no_race_partial`, `C08_outcome_of_every_interleaving`, `C08_refuted`, `C08_region_blind_races`, `C08_system_no_race_partial`, `C09_any_system`, `C09_linear_order`, `C09_step_is_textbook`, `C10_direction_scaling_refuted`, `C10_equal_lengths_partial`, `C11_cfl_condition`, `C12_multiples_of_interval`, `C12_save_times_increase`, `C12_saves_exact`, `C12_time_increases`, `C12_whole_simulation`, `C13_start_time_partial`, `C13_start_time_refuted`, `C14_ends_exactly_partial`, `C14_ends_exactly_refuted`, `C14_number_of_saves_partial`, `C17_configured_refuted`, `C17_constant_refuted`, `C17_empty_window_refuted`, `C17_writes_once_partial`, `C21_flux_agrees`, `C21_one_cell_blocks_refuted`, `C23_independent_of_distribution_partial`, `C23_one_source_partial`, `C24_across_processes_partial`, `C25_refuted`, `C25_uniform_in_bounds_partial`, `C26_configured_interval_refuted`, `C26_midpoints_partial`, `C26_refuted`, `C27_mean_and_variance`, `C28_one_point_moment`, `C29_last_samples_only`, `C29_mean_of_variations_refuted`, `C29_one_sample_each_partial`, `C30_contract`, `C30_identity`, `C30_legendre`, `C30_legendre_pointwise`, `C30_moment_partial`, `C30_moment_refuted`, `C30_moment_with_ghost_cells_throws`, `C30_structure_base_computed`, `C30_structure_base_partial`, `C30_structure_base_refuted`, `C30_structure_cube_computed`, `C30_structure_cube_refuted`, `C32_same_times`, `C32_times_determined`, `C32_unaligned_end_refuted`, `C34_unique`, `C37_consistent`, `C37_entropy`, `C37_order`, `C37_symmetric`, `C38_burgers_square`, `C38_closed_form_partial`, `C38_dissipates_partial`, `C38_euler_inner`, `C38_one_ghost_layer_refuted`, `C38_sums_to_zero_partial`, `C38_weights`, `C39_cons_of_prim`, `C39_extra`, `C39_flux`, `C39_prim_of_cons`, `C42_limiters`, `C43_order3_stencil_refuted`, `C43_order4_stencil_refuted`, `C43_stencil_unique`, `C44_constants`, `C45_constants_partial`, `C45_equal_sizes`, `C45_ghost_cells_refuted`, `C45_means_partial`, `C45_three_dimensions_refuted`, `C45_what_is_computed`, `C46_bounded`, `C46_degree_limit_refuted`, `C46_every_degree_wrong`, `C46_low_degrees_partial`, `C46_parity`, `C46_refuted`, `C47_directional`, `C47_directions_accepted`, `C47_directions_refuted`, `C47_translation_invariant`, `C47_zero_iff_constant`, `C48_all_sizes_refuted`, `C48_memory_ops_partial`, `C48_scalar_ops_partial`, `C48_size_mismatch`, `C48_size_t_ops`, `C50_simulator_checks`, `C51_overlap_refuted`, `C51_windows_partial`, `C52_boundary_of_other_side_refuted`, `C52_ghost_cells_twice_refuted`, `C52_second_direction_refuted`, `C52_structure_basic_partial`, `C52_two_points_computed`, `C52_two_points_partial`, `C53_buckley_leverett_refuted`, `C53_eigenvalue_is_derivative`, `C53_wave_speed_bounds_partial`, `C56_stable_partial`, `C57_blocks_meet`, `C57_cell_positions`, `C58_covers_equations`, `C58_runs_agree`, `C60_many_cells_refuted`, `C60_structure_cube`, `C61_identity`, `C61_legendre`, `C61_legendre_pointwise`, `C61_legendre_unit_cells_refuted`, `C61_moment`, `C61_structure_base_computed`, `C61_structure_base_refuted`, `C61_structure_cube_computed`, `C61_structure_cube_refuted`, `C62_structure_cube_refuted`, `C62_time_integrated`, `C63_constant`, `C63_exact_integral_refuted`, `C63_interval`, `C63_structure_base_refuted`, `C63_structure_cube_refuted`, `C63_time_integration`, `C64_eno_forgets`, `C64_history_independent`, `C65_closed_form_partial`, `C65_dissipates_partial`, `C65_ghost_layers_refuted`, `C65_order_four_refuted`, `C65_order_three_refuted`, `C65_sums_to_zero_partial`, `C65_y_direction_refuted`, `C66_compute_flux`, `C66_eno`, `C66_memory_operations`, `C66_right_hand_side`, `C66_tecno_eno`, `C67_axis_names_refuted`, `C67_thin_blocks_refuted`, `C68_decomposed_sample_refuted`, `C70_gpu_partial`, `C70_gpu_refuted`, `C70_region`, `C70_same_as_cpu`, `C72_max_speed`, `C73_memory_operations`, `C73_variation_direction_partial`, `C74_burgers_any_order`, `C74_conserves_refuted`, `C74_finishes`, `C74_race`, `C74_race_refuted`, `C76_decomposition_partial`, `C76_decomposition_refuted`, `C76_first_state`, `C76_first_value`, `C76_global_program`, `C80_invariant`, `C80_rotation`, `C84_accepted`, `C84_gas_cone`, `C84_line_partial`, `C84_refused`, `C85_dropped_refuted`, `C85_saves_partial`, `C85_window_computed`, `C85_window_mean_refuted`, `C85_window_refuted`, `C85_zero_saves_refuted`, `C87_eno_partial`, `C87_one_layer_refuted`, `C87_plain_partial`, `C87_runs_agree`, `C88_admissible`, `C88_lengths`, `C89_identity`, `C89_identity_variables_refuted`, `C89_legendre_partial`, `C89_legendre_refuted`, `C89_legendre_unit_cells_refuted`, `C89_structure_basic_computed`, `C89_structure_basic_partial`, `C89_structure_basic_refuted`, `C89_structure_cube`, `C89_structure_cube_functional`, `C92_both_refuted`, `C92_coarse_initial_refuted`, `C92_functional_initial_refuted`, `C92_integral`, `C92_late_functional_refuted`, `C92_late_writer_refuted`, `C92_saves_partial`, `C92_window_dropped_refuted`, `C92_window_refuted`, `C92_zero_saves_refuted`

**`ClassicalDedekindReals.sig_forall_dec`, `ClassicalDedekindReals.sig_not_dec`, `FunctionalExtensionality.functional_extensionality_dep`** (23 theorems):

`C30_bv_line`, `C30_bv_plane`, `C40_direction_0`, `C40_eigenvalues`, `C40_other_directions_refuted`, `C41_wenof2_positive`, `C41_wenof2_residual`, `C47_line_partial`, `C47_plane_partial`, `C47_plane_refuted`, `C59_bounded_variation_partial`, `C59_plane_partial`, `C61_bv_line`, `C61_bv_plane`, `C73_variation_3d_refused`, `C73_variation_line_outside`, `C73_variation_plane_partial`, `C73_variation_refuted`, `C76_gamma_refuted`, `C76_library_names_win`, `C77_all_classes`, `C79_hll_face_partial`, `C94_none_refuted`

**`ClassicalDedekindReals.sig_forall_dec`, `ClassicalDedekindReals.sig_not_dec`, `Classical_Prop.classic`, `FunctionalExtensionality.functional_extensionality_dep`** (98 theorems):

`C15_exact_refuted`, `C15_later_stamps_exact_partial`, `C25_binary64_in_bounds`, `C25_binary64_overflow_refuted`, `C27_binary64_negative_refuted`, `C33_euler_consistent_partial`, `C33_linear_roe_refuted`, `C33_scalar_consistent_partial`, `C33_sonic_refuted`, `C34_buckley_leverett`, `C34_burgers`, `C35_buckley_leverett_refuted`, `C35_maximum_principle_partial`, `C35_rectangular_cells_refuted`, `C36_net_flux_conserves_entropy`, `C36_other_potentials_refuted`, `C36_potential`, `C36_total_entropy_constant`, `C36_two_point`, `C38_euler_square`, `C43_exact`, `C43_order2_stencil`, `C44_convex`, `C44_indicators`, `C44_linear_limit`, `C50_check_euler`, `C50_check_scalar`, `C50_snapshots_admissible`, `C50_snapshots_admissible_scalar`, `C50_step_throws`, `C54_entropy_gradient`, `C54_net_flux_conserves_entropy_partial`, `C54_potential`, `C54_three_dimensions_refuted`, `C54_total_entropy_constant_partial`, `C54_two_point_partial`, `C55_tends_to_point_flux_refuted`, `C56_burgers_partial`, `C56_euler_partial`, `C56_total_entropy_decreases_partial`, `C61_log_entropy`, `C72_bad_cells_accepted`, `C72_check_partial`, `C72_check_refuted`, `C72_check_scalar_partial`, `C72_step_not_refused`, `C77_accepted`, `C77_euler_classes`, `C77_ghost_cells`, `C77_half_cell`, `C77_history_refuted`, `C77_linear_exact`, `C77_mirror_refuted`, `C77_rejected`, `C77_right_hand_side_partial`, `C77_right_hand_side_refuted`, `C77_scalar_classes`, `C77_suited`, `C77_unsuited_refuted`, `C77_wide_right_hand_side`, `C78_euler_axes_partial`, `C78_lengths_refuted`, `C78_scalar_axes_partial`, `C78_tecno_refuted`, `C79_burgers_mirror_partial`, `C79_eno_refuted`, `C79_euler_mirror_partial`, `C79_hll_refuted`, `C81_accepted`, `C81_enough_partial`, `C81_refuted`, `C81_too_few`, `C82_components_stay_zero`, `C82_more_components`, `C83_euler_units_partial`, `C83_linear_partial`, `C83_tecno_face_partial`, `C83_weno_refuted`, `C84_refuted`, `C86_hll_positive_partial`, `C86_long_cells_refuted`, `C88_coarse_refuted`, `C88_euler_time_partial`, `C88_scalar_time_partial`, `C89_log_entropy`, `C90_reconstruction_refuted`, `C90_roe_refuted`, `C90_superposition_partial`, `C90_weno_refuted`, `C93_auto_partial`, `C93_blanks_refuted`, `C93_buckley_leverett_refuted`, `C93_integrator_names`, `C93_reconstruction`, `C93_zero_cfl_refuted`, `C94_capitals_refuted`, `C94_conserves_partial`, `C94_two_layers_refuted`
