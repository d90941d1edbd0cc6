{"id": "C01", "title": "Cell traversal visits every cell of the requested box exactly once and nothing else", "statement": "For a volume of any size, view.index maps the cell triples of the volume one-to-one onto the linear positions 0..nx*ny*nz-1, and for_each_cell_index with start/end offsets calls the function exactly once for each cell in the box [start, total-end) and for no other position.", "quantifier": "all volume sizes nx,ny,nz >= 1 and all non-negative start/end offsets (including offsets that make the box empty)", "why_tests_cant": "Tests loop over a few fixed sizes; the claim is about every size and offset, including degenerate ones.", "anchors": ["alsfvm/include/alsfvm/volume/volume_foreach.hpp: for_each_cell_index", "alsfvm/include/alsfvm/memory/View.hpp: View::index", "alsfvm/include/alsfvm/memory/index.hpp: calculateIndex"]}
{"id": "C02", "title": "Periodic boundary fills every ghost cell with its periodic image", "statement": "After applyBoundaryConditions with a periodic boundary, every ghost cell (faces, edges and corners, in 1, 2 and 3 dimensions) holds the value of the interior cell whose coordinates are congruent modulo the number of interior cells; interior cells are unchanged; and no access is outside the volume.", "quantifier": "all volumes with N >= g interior cells per active direction, all ghost widths g >= 0, all cell contents, 1-3 dimensions", "why_tests_cant": "Corner cells depend on the order of the directional sweeps; a test checks a few cells of a few sizes, not each ghost cell of each size.", "anchors": ["alsfvm/src/boundary/BoundaryCPU.cpp: BoundaryCPU::applyBoundaryConditions, applyBoundary", "alsfvm/include/alsfvm/boundary/Periodic.hpp: Periodic::applyBoundary"]}
{"id": "C03", "title": "Neumann boundary fills every ghost cell with the mirror image of the interior", "statement": "After applyBoundaryConditions with a Neumann boundary, every ghost cell (faces, edges and corners) holds the value of the interior cell obtained by mirroring each of its coordinates at the domain face; interior cells are unchanged; no access is outside the volume.", "quantifier": "all volumes with N >= g interior cells per active direction, all ghost widths, all contents, 1-3 dimensions", "why_tests_cant": "Same as C02: quantifies over every size, ghost width and cell, including edge and corner cells.", "anchors": ["alsfvm/src/boundary/BoundaryCPU.cpp: applyBoundary", "alsfvm/include/alsfvm/boundary/Neumann.hpp: Neumann::applyBoundary"]}
{"id": "C04", "title": "Spatial discretisation conserves every conserved variable", "statement": "With periodic ghost cells the sum over all interior cells of the net flux computed by NumericalFlux::computeFlux is exactly zero (in exact arithmetic), for any two-point or multi-point flux and any reconstruction; no access is outside the volume.", "quantifier": "all grid sizes in 1-3 dimensions, all ghost widths, all cell states, all flux functions and all reconstructed left/right states that are themselves periodic", "why_tests_cant": "Needs every flux function and every state; a test fixes one flux, one grid, one state and a tolerance.", "anchors": ["alsfvm/src/numflux/NumericalFluxCPU.cpp: computeNetFlux, NumericalFluxCPU::computeFlux", "alsfvm/include/alsfvm/numflux/numflux_util.hpp"]}
{"id": "C05", "title": "A whole simulation conserves every conserved variable", "statement": "On a periodic domain the total (sum over interior cells) of each conserved variable after any number of Simulator::performStep calls equals its initial total, for forwardeuler, rungekutta2, rungekutta3 and rungekutta4, whatever timesteps are taken.", "quantifier": "all initial data, all step counts, all timestep sequences, all fluxes, all four integrators", "why_tests_cant": "Quantifies over unbounded histories and all data; round-off hides small leaks in a test.", "anchors": ["alsfvm/src/simulator/Simulator.cpp: Simulator::performStep, incrementSolution", "alsfvm/src/integrator/ForwardEuler.cpp", "alsfvm/src/integrator/RungeKutta2.cpp", "alsfvm/src/integrator/RungeKutta3.cpp", "alsfvm/src/integrator/RungeKutta4.cpp: performSubstep"]}
{"id": "C06", "title": "A uniform state is preserved for ever", "statement": "If every interior cell holds the same state and the boundary is periodic or Neumann, every performStep leaves every interior cell unchanged, with every integrator and every flux, without needing consistency of the flux.", "quantifier": "all states, grid sizes, fluxes, integrators, step counts and timesteps", "why_tests_cant": "Unbounded histories and arbitrary flux functions.", "anchors": ["alsfvm/src/simulator/Simulator.cpp: incrementSolution", "alsfvm/src/numflux/NumericalFluxCPU.cpp: computeNetFlux", "alsfvm/src/integrator: performSubstep"]}
{"id": "C07", "title": "Splitting the flux computation into inner region and boundary slabs changes nothing", "statement": "When the cells are exchanged with neighbouring processes, the system computes the flux first on an inner region and then on one bottom and one top slab per direction. Every interior cell is covered by at least one of these regions, cells in several slabs are recomputed to the same value, no other cell is written, and the result and the wave speeds equal those of a single flux computation over the whole interior.", "quantifier": "all interior sizes and all ghost widths in 1-3 dimensions (the smallest admissible interior size per direction is part of the answer)", "why_tests_cant": "Off-by-one coverage errors appear only for particular sizes; a test runs a few.", "anchors": ["alsfvm/src/simulator/ConservedSystem.cpp: ConservedSystem::operator()", "alsfvm/src/numflux/NumericalFluxCPU.cpp: computeFlux start/end"]}
{"id": "C08", "title": "Overlapping communication and computation is free of data races", "statement": "While the exchange thread writes ghost cells, the flux computation of the inner region on the main thread reads no ghost cell, so the outcome is independent of the interleaving.", "quantifier": "all interleavings, all grid sizes, all ghost widths, every reconstruction available on the CPU", "why_tests_cant": "A race is visible only under particular schedules; tests see one schedule per run.", "anchors": ["alsfvm/src/simulator/ConservedSystem.cpp: ConservedSystem::operator(), lines 39-63", "alsfvm/src/reconstruction/NoReconstruction.cpp: performReconstruction, lines 42-73", "alsfvm/src/reconstruction/WENOCPU.cpp: performReconstruction, lines 72-196", "alsfvm/src/reconstruction/ENOCPU.cpp: performReconstruction, lines 41-193", "alsfvm/src/reconstruction/ReconstructionCPU.cpp: performReconstruction, lines 38-102", "alsfvm/src/mpi/CartesianCellExchanger.cpp: exchangeCells, lines 51-104"]}
{"id": "C09", "title": "Each integrator performs the textbook Runge-Kutta step", "statement": "One performStep with forwardeuler, rungekutta2, rungekutta3, rungekutta4 maps u to the result of explicit Euler, Heun (SSP-RK2), Shu-Osher SSP-RK3 and the classical RK4 respectively, for the same right-hand side, with one common timestep for all stages; the orders of accuracy (1,2,3,4) hold on linear problems.", "quantifier": "all states in any number of cells, all (possibly non-linear) right-hand sides, all timesteps", "why_tests_cant": "Convergence tests measure a rate on one smooth problem; they cannot establish the identity for every right-hand side.", "anchors": ["alsfvm/src/integrator/ForwardEuler.cpp", "alsfvm/src/integrator/RungeKutta2.cpp", "alsfvm/src/integrator/RungeKutta3.cpp", "alsfvm/src/integrator/RungeKutta4.cpp: performSubstep"]}
{"id": "C10", "title": "Flux differences are scaled by the cell length of their own direction", "statement": "The update of a cell is dt times the sum over directions of the flux difference in that direction divided by the cell length in that direction, on every grid the configuration accepts.", "quantifier": "all grids with arbitrary cell lengths dx, dy, dz", "why_tests_cant": "Existing tests use square cells, where the claim cannot fail.", "anchors": ["alsfvm/src/integrator/ForwardEuler.cpp: performSubstep", "alsfvm/src/integrator/Integrator.cpp: computeTimestep", "alsfvm/src/config/SimulatorSetup.cpp: createGrid"]}
{"id": "C11", "title": "The timestep obeys the CFL condition", "statement": "Whenever the wave speeds are non-negative and not all zero, the computed timestep is strictly positive before adjustment and satisfies dt * sum_d(wavespeed_d / cellLength_d) = cfl before and <= cfl after any list of timestep adjusters that only shorten it.", "quantifier": "all wave speeds, cell lengths, CFL numbers and adjuster lists", "why_tests_cant": "Quantifies over all reals and all adjuster lists.", "anchors": ["alsfvm/src/integrator/Integrator.cpp: Integrator::computeTimestep, adjustTimestep", "alsfvm/src/simulator/TimestepInformation.cpp"]}
{"id": "C12", "title": "A fixed-interval writer saves exactly at the multiples of its interval", "statement": "If a FixedIntervalWriter with start time 0 is registered both as writer and as timestep adjuster, then for every sequence of CFL timesteps the snapshots it writes are at times 0, T, 2T, 3T, ... exactly, in order, each exactly once and none skipped, and time strictly increases.", "quantifier": "all intervals T > 0, all sequences of positive proposed timesteps (unbounded), with and without the initial snapshot", "why_tests_cant": "The property is about every infinite history of timesteps.", "anchors": ["alsfvm/src/io/FixedIntervalWriter.cpp: write, adjustTimestep", "alsfvm/src/simulator/Simulator.cpp: performStep, callWriters", "alsfvm/src/integrator/Integrator.cpp: adjustTimestep"]}
{"id": "C13", "title": "A fixed-interval writer with a start time saves exactly at start + k*T", "statement": "With start time s > 0 the snapshots are written at s, s+T, s+2T, ... exactly and simulated time never goes backwards.", "quantifier": "all start times, intervals and proposed timesteps", "why_tests_cant": "The failing histories need a timestep that straddles the start time.", "anchors": ["alsfvm/src/io/FixedIntervalWriter.cpp: adjustTimestep", "alsfvm/src/config/SimulatorSetup.cpp: createWriter (timeRadius + numberOfSnapshots)"]}
{"id": "C14", "title": "The simulation ends exactly at the end time", "statement": "When the run loop stops because atEnd() is true, the current time equals the configured end time.", "quantifier": "all end times, all timestep sequences, all writer configurations", "why_tests_cant": "Depends on the whole history of adaptive timesteps.", "anchors": ["alsfvm/src/simulator/Simulator.cpp: atEnd, performStep", "alsfvm/src/config/SimulatorSetup.cpp: readEndTime"]}
{"id": "C15", "title": "Save times are exact in floating-point arithmetic", "statement": "In binary64 arithmetic the current time after a step shortened to hit a save time equals that save time, so that the test currentTime >= saveTime succeeds in that step and snapshots of different samples carry identical time stamps.", "quantifier": "all binary64 times, save times and timesteps", "why_tests_cant": "Fails only for particular bit patterns.", "anchors": ["alsfvm/src/io/FixedIntervalWriter.cpp: adjustTimestep", "alsfvm/src/simulator/TimestepInformation.cpp: incrementTime", "alsuq/src/stats/FixedIntervalStatistics.cpp: adjustTimestep, computeStatistics"]}
{"id": "C16", "title": "A queued writer delivers each snapshot unmodified, once and in order", "statement": "Every volume handed to QueueWriter::write is handed to the handler of QueueWriter::pop exactly once, in the order written, with the contents it had when written, for every interleaving of the writing and the popping thread; at most queueLength volumes wait, and neither thread blocks for ever.", "quantifier": "all sequences of writes, all queue lengths, all thread interleavings", "why_tests_cant": "Quantifies over schedules; the failing ones need the consumer to lag behind.", "anchors": ["alsfvm/src/io/QueueWriter.cpp:21-69", "alsfvm/include/alsfvm/io/QueueWriter.hpp:28-71"]}
{"id": "C17", "title": "A time-integrated writer outputs the time average over its window", "statement": "TimeIntegratedWriter writes exactly once, after the window has passed, and what it writes is the sum of dt*u over the steps whose time lies within the radius of the requested time, divided by the window length; for a constant solution it is that constant.", "quantifier": "all sequences of (time, dt, state), all window centres and radii", "why_tests_cant": "Histories in which no step falls into the window, or the steps do not tile it, are not in tests.", "anchors": ["alsfvm/src/io/TimeIntegratedWriter.cpp: write"]}
{"id": "C18", "title": "The Cartesian decomposition partitions the grid and its neighbour relation is symmetric", "statement": "For every processor grid dividing the cell counts, the blocks given to the processes are pairwise disjoint and together cover the global grid; rank <-> coordinate conversion is a bijection; if process b is the neighbour of a on a side, then a is b's neighbour on the opposite side; a non-dividing processor grid is rejected.", "quantifier": "all grid sizes and all processor grids in 1-3 dimensions", "why_tests_cant": "Tests cover a few small processor grids.", "anchors": ["alsfvm/src/mpi/domain/CartesianDecomposition.cpp: decompose", "alsfvm/include/alsfvm/mpi/cartesian/rank_index.hpp", "alsfvm/include/alsfvm/mpi/cartesian/rank_component.hpp"]}
{"id": "C19", "title": "Cell exchange gives every face ghost cell the neighbour's interior value", "statement": "After exchangeCells has completed on all processes, every ghost cell that lies outside the interior in exactly one direction holds the value of the corresponding interior cell of the neighbouring process, and no interior cell has changed, for every order in which the messages are delivered.", "quantifier": "all processor grids, block sizes, ghost widths, numbers of variables and delivery orders", "why_tests_cant": "Message delivery order is nondeterministic; a test sees one order.", "anchors": ["alsfvm/src/mpi/CartesianCellExchanger.cpp: exchangeCells", "alsfvm/include/alsfvm/mpi/cartesian/displacements.hpp", "alsfvm/include/alsfvm/mpi/cartesian/lengths.hpp", "alsfvm/include/alsfvm/mpi/cartesian/number_of_segments.hpp"]}
{"id": "C20", "title": "Every message is matched by exactly one receive and none is mixed up", "statement": "In one exchange, every send has exactly one receive with the same source, destination and tag, also when two neighbours of a process are the same process (two processes per periodic direction), so no process waits for ever and no face is delivered to the wrong side.", "quantifier": "all processor grids, all periodicity choices, all numbers of variables", "why_tests_cant": "Deadlocks and mix-ups depend on topology and on matching order.", "anchors": ["alsfvm/src/mpi/CartesianCellExchanger.cpp: exchangeCells (tags, hasSide)"]}
{"id": "C21", "title": "A decomposed computation gives the same result as a serial one", "statement": "One flux computation on the blocks of a decomposed periodic grid, after cell exchange, gives in every cell exactly the value the serial computation gives in the corresponding cell of the global grid.", "quantifier": "all processor grids, grid sizes, ghost widths, states and flux functions", "why_tests_cant": "Tests compare one configuration with a tolerance.", "anchors": ["alsfvm/src/simulator/ConservedSystem.cpp", "alsfvm/src/mpi/CartesianCellExchanger.cpp", "alsfvm/src/mpi/domain/CartesianDecomposition.cpp", "alsfvm/src/numflux/NumericalFluxCPU.cpp"]}
{"id": "C22", "title": "Every sample is simulated exactly once per spatial position", "statement": "SimpleLoadBalancer assigns every sample index to exactly one statistical process group; all processes of one spatial group get the same samples in the same order; every global rank is in exactly one group; inconsistent process counts are rejected.", "quantifier": "all numbers of samples, processes and processor grids", "why_tests_cant": "Quantifies over all counts and over all ranks simultaneously.", "anchors": ["alsuq/src/mpi/SimpleLoadBalancer.cpp: loadBalance", "alsutils/src/mpi/Configuration.cpp: makeSubConfiguration"]}
{"id": "C23", "title": "The random input of a sample does not depend on how samples are distributed over processes", "statement": "The parameter values generated for sample index i are a function of i and the configuration alone: they are the same whichever other samples were generated before on the same process.", "quantifier": "all sample sets in increasing order, all numbers of parameters and dimensions, all process counts", "why_tests_cant": "Needs all partitions of the sample set; tests run one process.", "anchors": ["alsuq/src/generator/STLMersenne.cpp: generate", "alsuq/src/samples/SampleGenerator.cpp: generate", "alsuq/src/run/Runner.cpp: run"]}
{"id": "C24", "title": "Different (sample, parameter, component) triples use different random numbers", "statement": "No element of the pseudo random sequence is used for two different components of two samples, within a process or across processes.", "quantifier": "all sample sets, parameters, dimensions and process counts", "why_tests_cant": "Cross-process overlap is invisible inside one process.", "anchors": ["alsuq/src/generator/STLMersenne.cpp: generate", "alsuq/src/samples/SampleGenerator.cpp"]}
{"id": "C25", "title": "A uniform parameter stays within the bounds the user configured", "statement": "Every generated value of a parameter with distribution uniform and configured bounds lower, upper lies in [lower, upper] and is the affine image of the uniform random number.", "quantifier": "all bounds, all random numbers in [0,1), all samples", "why_tests_cant": "Tests use the default bounds.", "anchors": ["alsuq/src/distribution/Uniform.cpp: generate", "alsuq/src/config/Setup.cpp: makeSampleGenerator", "alsuq/src/distribution/Parameters.cpp"]}
{"id": "C26", "title": "uniform1d places sample i at the midpoint of the i-th of numberOfSamples equal parts", "statement": "The values generated by Uniform1D over samples 0..M-1 are the midpoints of the M equal parts of [a,b]: they lie inside, are equidistant and their mean is (a+b)/2; also when sampling starts at a non-zero sample index.", "quantifier": "all M, a < b, and start indices", "why_tests_cant": "All M and starts.", "anchors": ["alsuq/src/distribution/Uniform1D.cpp: generate", "alsuq/src/config/Setup.cpp: makeRunner (sampleStart)"]}
{"id": "C27", "title": "Mean and variance statistics equal the sample mean and variance for every distribution over processes", "statement": "After combineStatistics and finalizeStatistics the 'mean' is (1/M) times the sum of the sample snapshots and 'variance' is (1/M) times the sum of squared deviations from it, and is non-negative, for every assignment of samples to processes and every reduction order.", "quantifier": "all numbers of samples and processes, all assignments, all snapshot values", "why_tests_cant": "All partitions and values.", "anchors": ["alsuq/src/stats/MeanVariance.cpp: computeStatistics, finalizeStatistics", "alsuq/src/stats/StatisticsHelper.cpp: combineStatistics, findOrCreateSnapshot"]}
{"id": "C28", "title": "One-point moments are sample means of powers", "statement": "OnePointMoment with power p gives (1/M) sum u^p in every cell, for every assignment of samples to processes.", "quantifier": "all p, M, assignments and values", "why_tests_cant": "As C27.", "anchors": ["alsuq/src/stats/OnePointMoment.cpp: computeStatistics", "alsfvm/src/volume/Volume.cpp: addPower"]}
{"id": "C29", "title": "Directional bounded-variation statistic is the sample mean of the total variation", "statement": "BoundedVariationDirection outputs (1/M) times the sum over all samples of the directional total variation.", "quantifier": "all numbers of samples >= 1 and values", "why_tests_cant": "Single-sample tests cannot distinguish assignment from accumulation.", "anchors": ["alsuq/src/stats/BoundedVariationDirection.cpp: computeStatistics"]}
{"id": "C30", "title": "A functional used as a statistic is averaged over the samples", "statement": "FunctionalStatistics outputs (1/M) times the sum over samples of the functional value, for every functional offered, in particular structure_cube.", "quantifier": "all sample counts and values, all functionals", "why_tests_cant": "Single-sample tests cannot see overwriting.", "anchors": ["alsuq/src/stats/FunctionalStatistics.cpp: computeStatistics", "alsfvm/src/functional/StructureCube.cpp: operator()", "alsfvm/src/functional/Identity.cpp", "alsfvm/src/functional/Moment.cpp"]}
{"id": "C31", "title": "The structure-cube loops visit exactly the cells at distance h", "statement": "computeCube visits, for each h >= 1 and each cell, every offset with maximum norm exactly h, each exactly once, in 1, 2 and 3 dimensions, hence (2h+1)^d - (2h-1)^d offsets.", "quantifier": "all h >= 1, 1-3 dimensions", "why_tests_cant": "Double counting of edges shows only for particular h and needs an independent enumeration for all h.", "anchors": ["alsfvm/include/alsfvm/functional/structure_common.hpp: computeCube, forEachPointInComputeStructureCube"]}
{"id": "C32", "title": "Snapshots of different samples are taken at the same times", "statement": "For every two samples with different timestep histories FixedIntervalStatistics records snapshots at exactly the same times k*T, so the averages combine the right snapshots; the bookkeeping restarts for each sample.", "quantifier": "all pairs of timestep histories, all intervals, any number of consecutive samples", "why_tests_cant": "Quantifies over pairs of unbounded histories.", "anchors": ["alsuq/src/stats/FixedIntervalStatistics.cpp: computeStatistics, adjustTimestep"]}
{"id": "C33", "title": "Every numerical flux is consistent", "statement": "F(u,u) = f(u) for every numerical flux offered for each equation and every admissible state.", "quantifier": "all fluxes, equations and admissible states (in particular u < 0 and sonic states)", "why_tests_cant": "Failure sets can be of measure zero (sonic states) or half-lines not used in tests.", "anchors": ["alsfvm/include/alsfvm/numflux/Central.hpp", "alsfvm/include/alsfvm/numflux/Rusanov.hpp", "alsfvm/include/alsfvm/numflux/burgers/Godunov.hpp", "alsfvm/include/alsfvm/numflux/linear/Roe.hpp", "alsfvm/include/alsfvm/numflux/linear/Upwind.hpp", "alsfvm/include/alsfvm/numflux/euler/HLL.hpp", "alsfvm/include/alsfvm/numflux/euler/HLL3.hpp: computeFlux"]}
{"id": "C34", "title": "The Godunov flux is the exact Riemann flux", "statement": "For Burgers (and Buckley-Leverett on [0,1]) the Godunov flux of (l, r) is the minimum of f over [l,r] if l <= r and the maximum over [r,l] otherwise.", "quantifier": "all pairs of states", "why_tests_cant": "All real pairs, including transonic ones.", "anchors": ["alsfvm/include/alsfvm/numflux/burgers/Godunov.hpp: computeFlux", "alsfvm/include/alsfvm/numflux/buckleyleverett/Godunov.hpp: computeFlux"]}
{"id": "C35", "title": "First-order schemes for scalar equations obey the maximum principle", "statement": "For Burgers with the Godunov or Rusanov flux, no reconstruction, forward Euler and a CFL number at most 1/2 (1 for Godunov), every cell value after any number of steps lies between the minimum and the maximum of the initial data; total variation does not increase in 1D.", "quantifier": "all initial data, grid sizes, step counts and admissible timesteps", "why_tests_cant": "Unbounded histories and all data.", "anchors": ["alsfvm/include/alsfvm/numflux/burgers/Godunov.hpp", "alsfvm/include/alsfvm/numflux/Rusanov.hpp", "alsfvm/src/integrator/ForwardEuler.cpp", "alsfvm/src/integrator/Integrator.cpp"]}
{"id": "C36", "title": "Entropy-conservative fluxes conserve entropy", "statement": "For every scalar equation offered with the entropy-conservative flux, the entropy potential fits the entropy variable and the flux function (psi' = v' f), the flux satisfies (vR - vL) F = psiR - psiL, and the semi-discrete scheme on a periodic grid leaves the total entropy unchanged.", "quantifier": "all pairs of states inside the entropy bounds, all grid sizes", "why_tests_cant": "An identity between transcendental functions for all states.", "anchors": ["alsfvm/include/alsfvm/numflux/ScalarEntropyConservativeFlux.hpp: computeFlux", "alsfvm/include/alsfvm/equation/burgers/Burgers.hpp: computeEntropyVariables, computeEntropyPotential", "alsfvm/include/alsfvm/equation/cubic/Cubic.hpp", "alsfvm/include/alsfvm/equation/linear/Linear.hpp", "alsfvm/include/alsfvm/equation/buckleyleverett/BuckleyLeverett.hpp"]}
{"id": "C37", "title": "The fourth and sixth order combined fluxes are consistent and stay entropy conservative", "statement": "If the two-point flux is symmetric, consistent and entropy conservative, so (for the total entropy on a periodic grid) are the TecnoCombined4 and TecnoCombined6 fluxes built from it, and their truncation error vanishes to the stated order on polynomials for linear fluxes.", "quantifier": "all two-point fluxes with these properties, all states and grid sizes", "why_tests_cant": "Quantifies over flux functions.", "anchors": ["alsfvm/include/alsfvm/numflux/TecnoCombined4.hpp: computeFlux", "alsfvm/include/alsfvm/numflux/TecnoCombined6.hpp: computeFlux"]}
{"id": "C38", "title": "The TecNO diffusion never increases total entropy and conserves mass", "statement": "The diffusion term added by TecnoDiffusion with Roe or Rusanov matrix (no reconstruction) sums to zero over a periodic grid and its inner product with the entropy variables is <= 0, whatever the eigenvector matrices are.", "quantifier": "all states, eigenvector matrices, eigenvalues, grid sizes", "why_tests_cant": "All states and matrices.", "anchors": ["alsfvm/src/diffusion/TecnoDiffusionCPU.cpp: applyDiffusionCPU", "alsfvm/include/alsfvm/diffusion/RoeMatrix.hpp", "alsfvm/include/alsfvm/diffusion/RusanovMatrix.hpp"]}
{"id": "C39", "title": "Primitive and conserved Euler variables convert back and forth without loss", "statement": "For every density > 0 and gamma <> 1, computeConserved and computePrimitiveVariables are inverse to each other, pressure and velocity from computeExtra agree with the primitive ones, in 1, 2 and 3 dimensions.", "quantifier": "all states with positive density, all gamma <> 1", "why_tests_cant": "All reals.", "anchors": ["alsfvm/include/alsfvm/equation/euler/Euler.hpp: computeConserved, computePrimitiveVariables, computeExtra"]}
{"id": "C40", "title": "Euler eigenvalues and eigenvectors are those of the flux Jacobian", "statement": "For every admissible state and each direction the k-th column of computeEigenVectorMatrix is an eigenvector of the Jacobian of the flux in that direction for the k-th entry of computeEigenValues, and the wave speed used for the timestep bounds all of them.", "quantifier": "all states with positive density and pressure, all directions, 1-3 dimensions", "why_tests_cant": "An identity for all states and directions.", "anchors": ["alsfvm/include/alsfvm/equation/euler/Euler.hpp: computeEigenVectorMatrix, computeEigenValues, computeWaveSpeed, computePointFlux"]}
{"id": "C41", "title": "WENOF2 reconstruction keeps density and pressure positive", "statement": "If density and pressure are positive in the cell, the left and right states reconstructed by WENOF2 have positive density and positive pressure, whatever the neighbouring cells contain.", "quantifier": "all cell states and all neighbours, gamma > 1", "why_tests_cant": "Near-vacuum corner cases for all neighbours.", "anchors": ["alsfvm/include/alsfvm/reconstruction/WENOF2.hpp: reconstruct"]}
{"id": "C42", "title": "MC and minmod reconstructions create no new extrema and are exact for linear data", "statement": "The reconstructed face values of MC and MM lie between the cell value and the neighbour on that side, average to the cell value, reproduce linear data exactly, and give the cell value at extrema.", "quantifier": "all triples of cell values", "why_tests_cant": "All real triples.", "anchors": ["alsfvm/include/alsfvm/reconstruction/MC.hpp: reconstruct", "alsfvm/include/alsfvm/reconstruction/MM.hpp: reconstruct", "alsfvm/include/alsfvm/reconstruction/minmod.hpp: minmod"]}
{"id": "C43", "title": "ENO reconstruction reproduces polynomials and picks the smoother stencil", "statement": "ENO of order k returns the exact face values when the cell values are cell averages of a polynomial of degree < k, whatever stencil is chosen; and the stencil is chosen by extending at each level to the side with the smaller divided difference of the current stencil.", "quantifier": "all polynomials, all orders offered (2,3,4), all cell data", "why_tests_cant": "All data; choice errors affect accuracy only near discontinuities.", "anchors": ["alsfvm/src/reconstruction/ENOCPU.cpp: performReconstruction, computeDividedDifferences", "alsfvm/src/reconstruction/ENOCoefficients.cpp"]}
{"id": "C44", "title": "WENO weights are convex and have the optimal linear limit", "statement": "The weights of weno2 and weno3 are positive and sum to one for all data, constants are reproduced, and with equal smoothness indicators the reconstruction of order k is exact for cell averages of polynomials of degree < 2k-1.", "quantifier": "all cell data", "why_tests_cant": "All real data.", "anchors": ["alsfvm/include/alsfvm/reconstruction/WENO2.hpp: reconstruct", "alsfvm/src/reconstruction/WENOCPU.cpp: performReconstruction", "alsfvm/src/reconstruction/WENOCoefficients.cpp"]}
{"id": "C45", "title": "Coarsening a volume averages the fine cells covered by each coarse cell", "statement": "Setting a volume from one with twice the resolution gives each interior coarse cell the mean of the 2^d fine interior cells it covers; constants are reproduced.", "quantifier": "all sizes, ghost widths, contents, 1-3 dimensions", "why_tests_cant": "Wrong offsets are invisible on constant or smooth test data.", "anchors": ["alsfvm/include/alsfvm/volume/interpolate.hpp: interpolate", "alsfvm/src/volume/Volume.cpp: setVolume"]}
{"id": "C46", "title": "Legendre polynomials are the Legendre polynomials", "statement": "The polynomial evaluated by alsutils::math::legendre of degree n is P_n: P_n(1) = 1 and (n) P_n = (2n-1) x P_{n-1} - (n-1) P_{n-2}.", "quantifier": "all degrees and arguments", "why_tests_cant": "Tests compare low degrees at few points.", "anchors": ["alsutils/include/alsutils/math/legendre.hpp"]}
{"id": "C47", "title": "Total variation counts every pair of neighbours exactly once", "statement": "Memory::getTotalVariation in 1D equals the sum over all neighbouring pairs of |u_{i+1}-u_i|^p, is translation invariant, zero exactly on constants, and accepts exactly the directions the memory has.", "quantifier": "all sizes, contents, powers and directions", "why_tests_cant": "All sizes and contents.", "anchors": ["alsfvm/src/memory/HostMemory.cpp: getTotalVariation"]}
{"id": "C48", "title": "Element-wise volume operations act on every element", "statement": "operator*=, operator+=, addLinearCombination etc. act on each element of the memory, for every size that can be allocated.", "quantifier": "all sizes representable in size_t, all contents", "why_tests_cant": "Needs more than 2^31 elements to fail.", "anchors": ["alsfvm/src/memory/HostMemory.cpp: operator*=, operator+=, addLinearCombination"]}
{"id": "C49", "title": "copyInternalCells copies exactly the interior cells in order", "statement": "copyInternalCells writes precisely the cells of the requested box to the output buffer, in x-fastest order, without leaving the buffer of the stated size.", "quantifier": "all sizes, boxes and contents", "why_tests_cant": "All sizes and boxes.", "anchors": ["alsfvm/src/memory/HostMemory.cpp: copyInternalCells", "alsfvm/src/volume/Volume.cpp: copyInternalCells"]}
{"id": "C50", "title": "A simulation never silently continues from an inadmissible state", "statement": "performStep throws unless after the step every cell satisfies the equation's constraints (finite values; positive density and pressure for Euler), so every snapshot written after the first step is admissible.", "quantifier": "all states including NaN and infinities, all step counts", "why_tests_cant": "Quantifies over all histories and non-finite values.", "anchors": ["alsfvm/src/simulator/Simulator.cpp: performStep, checkConstraints", "alsfvm/src/equation/CPUCellComputer.cpp: obeysConstraints"]}
{"id": "C51", "title": "The coarse-graining interval writer saves its windows at the documented times", "statement": "CoarseGrainingIntervalWriter writes, for each multiple kT of the interval, 2n+1 snapshots at kT + j*(skips+1)*dx for j=-n..n, each exactly once and in order, and never proposes a non-positive timestep.", "quantifier": "all intervals, window sizes, cell lengths and timestep histories", "why_tests_cant": "Overlapping windows and unusual histories are not tested.", "anchors": ["alsfvm/src/io/CoarseGrainingIntervalWriter.cpp: write, adjustTimestep"]}
{"id": "C52", "title": "Structure functions use the whole interior and both directions", "statement": "structure_basic averages |u(x)-u(x+h e)|^p over all interior cells; structure_two_points averages over all interior cells using the two configured directions.", "quantifier": "all grids, h, directions and contents", "why_tests_cant": "Tests use one direction and compare with the same loop.", "anchors": ["alsuq/src/stats/StructureBasic.cpp: computeStatistics", "alsuq/src/stats/StructureTwoPoints.cpp: computeStatistics"]}
{"id": "C53", "title": "The wave speed reported by a scalar flux bounds all characteristic speeds between its states", "statement": "For each scalar equation, the wave speed that a numerical flux reports for states (l, r), from which the timestep is computed, is at least |f'(x)| for every x between l and r; the eigenvalue used is the derivative of the flux function.", "quantifier": "all scalar equations, all pairs of states, all intermediate states", "why_tests_cant": "A timestep that is too large shows up only for particular pairs of states on particular grids; tests run a few initial values with convex fluxes.", "anchors": ["alsfvm/include/alsfvm/equation/burgers/Burgers.hpp:203-209", "alsfvm/include/alsfvm/equation/buckleyleverett/BuckleyLeverett.hpp:204-212", "alsfvm/include/alsfvm/numflux/Rusanov.hpp:39-59", "alsfvm/src/integrator/TimeIntegrator.cpp"]}
{"id": "C54", "title": "The TecNO flux for the Euler equations conserves entropy", "statement": "The entropy variables of the Euler equations are the gradient of the entropy -rho s/(gamma-1) and the entropy potential is v.f - q; the tecno1, tecno4 and tecno6 fluxes satisfy (vR - vL).F = psiR - psiL, so on a periodic grid the semi-discrete scheme without diffusion leaves the total entropy unchanged.", "quantifier": "all pairs of states with positive density and pressure, all directions, 1-3 dimensions, all periodic grids", "why_tests_cant": "Tests evaluate the flux for a few states; the identity has separate code paths when two logarithmic means vanish and per dimension.", "anchors": ["alsfvm/include/alsfvm/numflux/euler/Tecno1.hpp:52-166", "alsfvm/include/alsfvm/numflux/euler/tecno_utils.hpp:22-47", "alsfvm/include/alsfvm/equation/euler/Euler.hpp:311-361"]}
{"id": "C55", "title": "The TecNO flux tends to the physical flux as the two states approach each other", "statement": "For states l, r tending to u the tecno1 flux of (l, r) tends to f(u): there is no jump between the formula for different states and the point flux used for equal ones.", "quantifier": "all states with positive density and pressure, all ways of approaching them", "why_tests_cant": "The failure needs states with equal product of density and pressure but different velocity; random states never meet that, piecewise constant initial data do.", "anchors": ["alsfvm/include/alsfvm/numflux/euler/Tecno1.hpp:52-166", "alsfvm/include/alsfvm/numflux/euler/tecno_utils.hpp:22-47"]}
{"id": "C56", "title": "TeCNO schemes never let the total entropy grow", "statement": "On a periodic grid the entropy-conservative fluxes (tecno1, tecno4, tecno6 for Euler and Burgers) together with the Roe or Rusanov diffusion operator give a semi-discrete scheme whose total entropy does not increase: the inner product of what computeFlux and applyDiffusion write with the entropy variables is not positive.", "quantifier": "all periodic grids, all admissible states, both dissipation matrices, all three fluxes", "why_tests_cant": "The sign of the sum depends on every cell of the grid and on stale scratch memory; tests look at a few runs of one configuration.", "anchors": ["alsfvm/src/diffusion/TecnoDiffusionCPU.cpp:28-168", "alsfvm/include/alsfvm/diffusion/RoeMatrix.hpp:36-47", "alsfvm/include/alsfvm/diffusion/RusanovMatrix.hpp:36-56", "alsfvm/src/simulator/ConservedSystem.cpp:31-114"]}
{"id": "C57", "title": "Every block sees its cells at their global positions", "statement": "After CartesianDomainDecomposition::decompose, the cell midpoint a process computes for one of its local cells is the midpoint of the same cell in the undecomposed grid, and neighbouring blocks share their interface (the upper corner of one is the origin of the next), so initial data and output coordinates do not depend on the number of processes.", "quantifier": "all grids, all processor grids dividing the cell counts, all ranks, all local cells and directions", "why_tests_cant": "Tests run one or two fixed decompositions; the offsets are per-rank arithmetic on three counts.", "anchors": ["alsfvm/src/mpi/domain/CartesianDecomposition.cpp:67-78", "alsfvm/src/grid/Grid.cpp:156-164"]}
{"id": "C58", "title": "A decomposed run gives the serial solution at every step", "statement": "Simulators on the blocks of a decomposed grid, each applying boundary conditions, exchanging cells, reducing wave speeds and stepping with the same integrator, hold after any number of steps exactly the parts of the solution a serial simulator on the whole grid holds, at exactly the same time, and never wait for a message that is not sent.", "quantifier": "all processor grids dividing the grid with blocks at least two cells (and the ghost width) wide in the active directions, all initial data, all step counts, all integrators, fluxes and reconstructions, periodic and Neumann boundaries, all orders of message delivery", "why_tests_cant": "Tests compare one decomposition and one schedule up to a tolerance; the claim is about all schedules and all step counts, and errors at block edges travel one stencil per step.", "anchors": ["alsfvm/src/simulator/Simulator.cpp:191-229", "alsfvm/src/simulator/ConservedSystem.cpp:31-103", "alsfvm/src/mpi/CartesianCellExchanger.cpp:38-155", "alsfvm/src/mpi/domain/CartesianDecomposition.cpp:43-166", "alsfvm/src/boundary/BoundaryCPU.cpp:31-121"]}
{"id": "C59", "title": "Bounded-variation statistic is the sample mean of the total variation", "statement": "The bounded-variation statistic gives, at every saved time, (1/M) times the sum over all samples of the total variation (to the given power) of the interior cells, for every assignment of samples to processes and every reduction order.", "quantifier": "all numbers of samples and processes, all assignments, all powers, all ghost widths, all snapshot values", "why_tests_cant": "All assignments and values; a test with one sample cannot tell accumulation from assignment.", "anchors": ["alsuq/src/stats/BoundedVariation.cpp: computeStatistics", "alsfvm/src/volume/Volume.cpp: getTotalVariation", "alsuq/src/stats/StatisticsHelper.cpp: combineStatistics"]}
{"id": "C60", "title": "The structure-cube statistic is the sample mean of the structure function", "statement": "At every saved time and for every h from 1 below numberOfH, the structure_cube statistic holds (1/M) times the sum over all samples of the mean over the interior cells x of the sum over all offsets o with maximum norm h of |u(x) - u(x+o)|^p, with u continued periodically or by its nearest interior value according to the boundary type of the grid.", "quantifier": "all sample counts, assignments of samples to processes and reduction orders, all powers, all ghost widths, 1-3 dimensions, all interior cell counts including those whose product exceeds a machine integer, all contents", "why_tests_cant": "Needs all h, all dimensions, all boundary distances and all assignments; tests compare one small grid with a copy of the same loop.", "anchors": ["alsuq/src/stats/StructureCube.cpp:36-76", "alsfvm/include/alsfvm/functional/structure_common.hpp:48-180", "alsfvm/include/alsfvm/boundary/ValueAtBoundary.hpp:23-94"]}
{"id": "C61", "title": "Every functional adds weight times its value to the output", "statement": "Calling a functional with a weight w on an output that holds a gives a + w f(u), where f is the documented functional of the interior of u: the interior values (identity), their p-th powers (moment), the total variation (bv), the Legendre polynomial of each value or its integral by the midpoint rule (legendre, legendre_pointwise), the midpoint-rule integral of the entropy (log_entropy), the structure functions (structure_cube, structure_base). Nothing already in the output is lost, and f(u) depends neither on the weight nor on the previous output.", "quantifier": "all functionals, all previous outputs, all weights, all inputs, all ghost widths, grids and cell lengths", "why_tests_cant": "The contract concerns the previous output and the weight; tests call functionals once on a zeroed output with weight 1.", "anchors": ["alsfvm/include/alsfvm/functional/Functional.hpp:36-53", "alsfvm/src/functional/Identity.cpp", "alsfvm/src/functional/Moment.cpp", "alsfvm/src/functional/BoundedVariation.cpp", "alsfvm/src/functional/Legendre.cpp", "alsfvm/src/functional/LegendrePointWise.cpp", "alsfvm/src/functional/LogEntropy.cpp", "alsfvm/src/functional/StructureCube.cpp", "alsfvm/src/functional/StructureBase.cpp"]}
{"id": "C62", "title": "A time-integrated functional statistic is the sample mean of time integrals", "statement": "The functional_time_integrated statistic holds the mean over all samples of the sum, over the timesteps of the sample that end within timeRadius of time, of the length of the step times the value of the functional after it. Samples may take different timesteps; nothing of one sample leaks into another one simulated afterwards on the same process.", "quantifier": "all functionals, all sample counts, assignments of samples to processes and reduction orders, all sequences of timesteps per sample, all windows", "why_tests_cant": "Needs all timestep sequences and all assignments of samples to processes; the state lastTime is carried from one sample to the next.", "anchors": ["alsuq/src/stats/TimeIntegratedFunctionalStatistics.cpp:50-83", "alsuq/include/alsuq/stats/TimeIntegratedFunctionalStatistics.hpp", "alsuq/src/stats/StatisticsHelper.cpp:35-79"]}
{"id": "C63", "title": "Functionals of one simulation are integrated over the window, or written as they are", "statement": "A functional configured with a time window writes the integral of its value over the window, up to the resolution of the timesteps: the sum over the timesteps that end in the window of length times value. A functional written at intervals writes exactly its value for the current state, with nothing left from earlier writes.", "quantifier": "all functionals, all sequences of timesteps and states, all windows, all numbers of writes", "why_tests_cant": "Needs all timestep sequences; output areas are reused from one write to the next, which one write cannot show.", "anchors": ["alsfvm/src/functional/TimeIntegrationFunctional.cpp:33-74", "alsfvm/src/functional/IntervalFunctionalWriter.cpp:31-75", "alsfvm/src/config/SimulatorSetup.cpp:560-620"]}
{"id": "C64", "title": "ENO reconstruction does not depend on what earlier calls left in its scratch arrays", "statement": "ENOCPU keeps its divided difference arrays between calls and fills only part of them for each direction and region. For every call the reconstructed values are those of the pointwise ENO rule applied to the current volume, and no access leaves the arrays, whatever the arrays held before.", "quantifier": "all volumes, orders 2 to 4, directions, regions, array contents, histories of calls", "why_tests_cant": "A stale entry matters only for particular sequences of directions, regions and data; tests run a few sequences on smooth data where stale and fresh differences select the same stencil.", "anchors": ["alsfvm/src/reconstruction/ENOCPU.cpp: performReconstruction, lines 41-187", "alsfvm/src/reconstruction/ENOCPU.cpp: computeDividedDifferences, lines 205-267"]}
{"id": "C65", "title": "TeCNO diffusion with ENO reconstruction is conservative and dissipates entropy", "statement": "With reconstruction eno2, eno3 or eno4 the diffusion operator adds to each interior cell the difference of the dissipations of its faces, computed from ENO-reconstructed scaled entropy variables. On a periodic grid with the number of ghost cells the operator asks for, what it adds sums to zero, and the total of entropy variables times addition is not positive, in every number of dimensions. The result does not depend on what earlier calls left in the operator's volumes and arrays.", "quantifier": "all equations, eigenvector matrices and entropy variables, all fields, orders 2 to 4, Roe and Rusanov matrices, 1 to 3 dimensions, all contents of the operator's volumes and arrays", "why_tests_cant": "A few smooth test cases do not exercise the stencil choices and boundary entries that decide the sign; entropy stability is an inequality over all states.", "anchors": ["alsfvm/src/reconstruction/tecno/ENOCPU.cpp:23-243", "alsfvm/src/diffusion/TecnoDiffusionCPU.cpp:28-168", "examples/tecnoburgers/tecnoburgers.xml"]}
{"id": "C66", "title": "Results do not depend on the number of OpenMP threads or their schedule", "statement": "computeFlux (with every reconstruction), the ENO reconstruction for the TeCNO diffusion and the element-wise operations of HostMemory contain OpenMP parallel loops. Whatever the interleaving of their iterations, no data race occurs, the loops end, and the contents of every array and the wave speed of every direction are those of the same loops on one thread. This also holds when an operand of an element-wise operation is the memory area itself.", "quantifier": "all interleavings of the accesses of the iterations, all orders and groupings of the reduction, all volumes and fields, 1 to 3 dimensions, all fluxes, reconstructions and regions", "why_tests_cant": "A test sees the few schedules the runtime happens to choose; races and order dependence show up in others.", "anchors": ["alsfvm/src/numflux/NumericalFluxCPU.cpp:66-146", "alsfvm/src/reconstruction/ReconstructionCPU.cpp:85-95", "alsfvm/src/reconstruction/ENOCPU.cpp:119-184", "alsfvm/src/reconstruction/WENOCPU.cpp:124-190", "alsfvm/src/reconstruction/tecno/ENOCPU.cpp:57-243", "alsfvm/src/memory/HostMemory.cpp:96-312"]}
{"id": "C67", "title": "NetCDF snapshot: every cell once, at its place, for every decomposition", "statement": "After a snapshot, the NetCDF file has one variable per conserved variable with the global grid size; each interior cell of the solution is stored exactly once at its own (x,y,z) index, ghost cells are not stored, and the file does not depend on the number of processes or on the order in which they write.", "quantifier": "all grids, all decompositions that divide the grid, all ghost widths, all solutions, all orders of the processes' writes", "why_tests_cant": "The layout depends on grid shape and decomposition together; tests use square grids and few processes.", "anchors": ["alsfvm/src/io/NetCDFWriter.cpp:73-132", "alsfvm/src/io/NetCDFMPIWriter.cpp:105-230"]}
{"id": "C68", "title": "HDF5 snapshot: the complete interior solution of a sample", "statement": "After a snapshot, the HDF5 dataset of a sample holds every interior cell of the sample's solution once, in the declared ordering (x fastest), also when the sample is computed by several processes.", "quantifier": "all grids, decompositions, ghost widths, solutions and orders of the processes' writes", "why_tests_cant": "Loss of data depends on the order of writes of different processes.", "anchors": ["alsfvm/src/io/HDF5Writer.cpp:88-199", "alsfvm/src/io/HDF5MPIWriter.cpp:114-169"]}
{"id": "C69", "title": "A UQ run stores every snapshot of every sample under its own name", "statement": "A run over many samples ends; afterwards file number t holds, for every sample k and conserved variable v, one variable sample_k_v with the values of sample k at its snapshot t, and nothing else; no other file is touched.", "quantifier": "all sample lists, all divisions into statistical ranks and batches, all numbers of snapshots and variables, all previous contents of the directory", "why_tests_cant": "Name clashes and missing collective calls depend on the distribution of samples over processes and on the number of time steps of each sample.", "anchors": ["alsuq/src/run/FiniteVolumeSimulatorCreator.cpp:29-85", "alsuq/src/run/Runner.cpp:42-78", "alsuq/src/io/MPIWriterFactory.cpp:30-90", "alsfvm/src/io/NetCDFMPIWriter.cpp:44-160", "alsfvm/src/io/io_utils.cpp:33-39"]}
{"id": "C70", "title": "On a GPU the right hand side is the one computed on the CPU", "statement": "Computing the net flux with the CUDA kernels ends, without a data race or an access outside a volume, with one result whatever the order of the threads: every interior cell holds the flux differences of all directions, all other cells of the output and the conserved variables keep their values, and the reduction gives the largest wave speed of the interfaces; this is what the CPU version computes.", "quantifier": "all numerical fluxes and reconstructions available on the GPU, numbers of dimensions and ghost cells, extents, fields, contents of the temporary volumes, interleavings of threads", "why_tests_cant": "The order of the threads is not under a test's control, and the CUDA code needs a GPU; the property covers all extents, in particular those that are no multiple of the block size.", "anchors": ["alsfvm/src/numflux/NumericalFluxCUDA.cu:39-423", "alsfvm/src/reconstruction/ReconstructionCUDA.cu:31-104", "alsfvm/src/reconstruction/NoReconstructionCUDA.cu:27-46", "alsfvm/src/reconstruction/ENOCUDA.cu:128-226", "alsfvm/include/alsfvm/cuda/cuda_utils.hpp:57-92"]}
{"id": "C71", "title": "On a GPU the boundary conditions fill every ghost cell with its image, without a data race", "statement": "Applying the boundary conditions with the CUDA kernels ends, whatever the order of the threads, with every ghost cell (corners included) holding the value of its mirror or periodic image and every interior cell unchanged, sides exchanged by MPI being left alone; no two threads access one element at the same time with one of them writing.", "quantifier": "Neumann and periodic conditions, numbers of dimensions and ghost cells, extents of at least the number of ghost cells, sets of sides left to MPI, contents, numbers of variables, interleavings of threads", "why_tests_cant": "The order of the threads is not under a test's control and a surplus thread that stores the same value as another is invisible in the result.", "anchors": ["alsfvm/src/boundary/BoundaryCUDA.cu:26-160", "alsfvm/include/alsfvm/boundary/Neumann.hpp:24-35", "alsfvm/include/alsfvm/boundary/Periodic.hpp:24-42"]}
{"id": "C72", "title": "On a GPU too, a step that leaves an inadmissible cell is refused", "statement": "With the cell computer of the GPU the check after a step answers true exactly when every cell, ghost cells included, is admissible (all values finite, for Euler positive density and pressure), so that no volume with an inadmissible cell reaches a writer; its largest wave speed is the one of the CPU.", "quantifier": "all equations, extents, contents of the volume including infinities and not-a-numbers, schedules and orders of the reductions", "why_tests_cant": "Tests run simulations that stay admissible; the property is about the contents that no test produces, in any one cell of a volume of any size.", "anchors": ["alsfvm/src/equation/CUDACellComputer.cu:55-200", "alsfvm/src/equation/CPUCellComputer.cpp:46-125", "alsfvm/src/simulator/Simulator.cpp:181"]}
{"id": "C73", "title": "Operations on memory areas give the same on GPU and host", "statement": "The arithmetic operations on a memory area on the GPU change every element, whatever the order of the threads, to what the operation on the host gives, leave the operands alone and refuse areas of different sizes; the total variation, with and without a direction, is the one of the host and is computed without reading outside the area.", "quantifier": "all sizes below 2^31 elements, contents, operands (the area itself included), exponents, boxes, interleavings of threads, orders of the reduction", "why_tests_cant": "Needs a GPU; reading next to an area usually gives some number instead of a failure; the property covers all sizes, in particular those that are no multiple of the block size.", "anchors": ["alsfvm/src/cuda/CudaMemory.cpp:165-373", "alsfvm/src/cuda/vector_operations.cu:23-424", "alsfvm/include/alsfvm/cuda/cuda_utils.hpp:57-92", "alsuq/src/stats/BoundedVariation.cpp:40-58"]}
{"id": "C74", "title": "The TeCNO diffusion on the GPU is race free and conserves like on the CPU", "statement": "With platform cuda, the operator tecnoroe or tecnorusanov (no reconstruction) gives a result that does not depend on the order in which GPU threads run, and the term it adds sums to zero over a periodic grid, as on the CPU.", "quantifier": "all equations, grids, fields and interleavings of the GPU threads", "why_tests_cant": "A data race shows only in some interleavings, and a test on one device sees one of them; the sum must vanish for every field.", "anchors": ["alsfvm/src/diffusion/TecnoDiffusionCUDA.cu: lines 29-228", "alsfvm/src/reconstruction/tecno/NoReconstructionCUDA_tecno.cu: performReconstruction"]}
{"id": "C75", "title": "Exchanges between GPUs deliver what the neighbour gave to the same exchange", "statement": "In a decomposed simulation on GPUs, every cell exchange leaves the inner cells alone, stores in the ghost cells of each face with a neighbour what that neighbour gave to the same exchange, leaves the faces without neighbour alone, never deadlocks, and its kernels are race free, whatever integrator is used.", "quantifier": "all decompositions, grids, ghost layers, numbers of variables, fields, integrators, all interleavings of the processes with the progress of the MPI messages and of the GPU threads and streams", "why_tests_cant": "Needs several GPUs; when MPI reads a send buffer is up to the implementation, message size and network, so a test sees one timing out of many.", "anchors": ["alsfvm/src/mpi/CudaCartesianCellExchanger.cu", "alsfvm/src/mpi/Request.cpp:20-60", "alsfvm/src/integrator/*.cpp performSubstep, computeTimestep", "alsfvm/src/integrator/ConservedSystem.cpp:45-63"]}
{"id": "C76", "title": "The first state of a simulation is what the initial data program says", "statement": "The program of fvm.initialData sees the parameters of the equation, those of the configuration file and, for a sample of an uncertainty study, the values of that sample. A snippet is evaluated at the centre of every cell; its variables become the primitive variables of this cell, the conserved variables are computed from them, ghost cells hold the values of their images, and an exception in any cell aborts the simulation. A program with init_global gets arrays of zeros and what it stores at (i, j, k) belongs to this cell. Samples of one process do not influence each other, and the state does not depend on the number of processes.", "quantifier": "all parameters and samples, all snippets and programs (any meaning of the Python text), all grids and ghost widths, serial and decomposed, all processes", "why_tests_cant": "The meaning of the initial data is a program given by the user; a test fixes one program, one set of parameter names and one number of processes, and cannot show that no name, cell or block is treated differently.", "anchors": ["alsfvm/src/init/PythonInitialData.cpp:79-290", "alsfvm/src/init/Parameters.cpp:21-55", "alsfvm/src/config/SimulatorSetup.cpp:431-479", "alsfvm/src/simulator/Simulator.cpp:117-162", "alsfvm/include/alsfvm/volume/volume_foreach.hpp:441-476", "alsuq/src/run/Runner.cpp:42-53"]}
{"id": "C77", "title": "Every flux and reconstruction the configuration accepts work together", "statement": "A configuration is accepted exactly if the equation offers the flux (in any case of letters) and the reconstruction (with white space around it); otherwise creating the simulator throws. With an accepted pair the ghost layer is wide enough, so that the computed right-hand side and wave speed are those of the given cell values and do not depend on what the work arrays held before, and a fourth or sixth order flux does not lose its symmetry when combined with a reconstruction.", "quantifier": "all strings for equation, flux and reconstruction, all grids, fields and contents of the work arrays", "why_tests_cant": "There are hundreds of accepted combinations; tests run a few of them. Reading cells of a work array that were never computed gives plausible numbers which depend on what ran before.", "anchors": ["alsfvm/src/numflux/NumericalFluxFactory.cpp:60-200", "alsfvm/src/numflux/NumericalFluxCPU.cpp:63-252", "alsfvm/src/reconstruction/ReconstructionFactory.cpp:49-165", "alsfvm/include/alsfvm/numflux/TecnoCombined4.hpp:40-71", "alsfvm/include/alsfvm/numflux/TecnoCombined6.hpp:40-75", "alsfvm/src/memory/HostMemory.cpp:37"]}
{"id": "C78", "title": "The names of the axes do not matter", "statement": "When two axes of a problem change places (numbers of cells, cell lengths, initial data and, for the Euler equations, the components of the momentum), the simulation takes the same time steps and computes the solution with the axes exchanged; or both simulations throw.", "quantifier": "all equations, fluxes and reconstructions that fit together, all integrators, boundary conditions, grids, initial data and numbers of steps", "why_tests_cant": "Code that is written once per direction is usually tested along x; a run along another axis is compared by eye. That two whole families of runs agree, for every grid and every initial state, is not a statement about any finite set of runs.", "anchors": ["alsfvm/src/numflux/NumericalFluxCPU.cpp:63-222", "alsfvm/include/alsfvm/numflux/euler/Tecno1.hpp:52-166", "alsfvm/include/alsfvm/equation/euler/Euler.hpp:172-258", "alsfvm/src/simulator/ConservedSystem.cpp:30-122", "alsfvm/src/integrator/ForwardEuler.cpp:25-53", "alsfvm/src/boundary/BoundaryCPU.cpp:30-126"]}
{"id": "C79", "title": "A problem seen in a mirror has the mirrored solution", "statement": "The Burgers equation is unchanged when x is replaced by -x and u by -u, the Euler equations when one axis and the momentum along it change their sign. The simulation respects this: mirrored initial data give the mirrored solution at the same times; in particular symmetric data stay symmetric.", "quantifier": "all fluxes and reconstructions that fit together, all integrators, boundary conditions, grids, initial data and numbers of steps", "why_tests_cant": "Numerical schemes choose between left and right (upwinding, stencil selection, comparisons with zero); only ties and zeros are decided differently in a mirror, and test data avoid them.", "anchors": ["alsfvm/include/alsfvm/numflux/euler/HLL.hpp:51-115", "alsfvm/include/alsfvm/numflux/burgers/Roe.hpp:37-61", "alsfvm/include/alsfvm/numflux/burgers/Godunov.hpp:40-60", "alsfvm/src/reconstruction/ENOCPU.cpp:132-176", "alsfvm/src/reconstruction/WENOCPU.cpp:120-191", "alsfvm/include/alsfvm/reconstruction/WENO2.hpp:37-71"]}
{"id": "C80", "title": "On a periodic grid the origin does not matter", "statement": "With periodic boundaries, initial data rotated by any number of cells along an axis give the rotated solution, at the same times; or both runs throw. Data that do not depend on the position along an axis give a solution that does not.", "quantifier": "all equations, all fluxes and reconstructions that fit together, all integrators, grids in one to three dimensions, initial data, rotations and numbers of steps", "why_tests_cant": "The cells next to the boundary are computed from ghost cells and by the first and last iterations of loops; equality with the interior for every rotation, grid and state is a statement about all of them.", "anchors": ["alsfvm/src/boundary/BoundaryCPU.cpp:30-126", "alsfvm/src/numflux/NumericalFluxCPU.cpp:63-222", "alsfvm/src/integrator/RungeKutta2.cpp:25-69", "alsfvm/src/simulator/Simulator.cpp:81-232"]}
{"id": "C81", "title": "An accepted configuration only reads components the equation has", "statement": "The factory that makes the flux object takes the number of directions from the grid and the number of momentum components from the equation. Every accepted combination evaluates its right-hand side without reading a vector outside its components.", "quantifier": "all equation, flux and reconstruction names, all grids, all states and work arrays", "why_tests_cant": "Reading past a small vector returns the neighbouring member and no test notices; that no flux in any direction of any grid does so is a statement about all configurations.", "anchors": ["alsfvm/src/numflux/NumericalFluxFactory.cpp:60-99", "alsfvm/include/alsfvm/equation/euler/Euler.hpp:172-181", "alsfvm/include/alsfvm/equation/euler/Euler.hpp:251-258", "alsutils/include/alsutils/vec1.hpp:76-87", "alsfvm/include/alsfvm/numflux/euler/HLL.hpp:51-115", "alsfvm/include/alsfvm/numflux/euler/HLL3.hpp:52-148", "alsfvm/src/grid/Grid.cpp:131-139"]}
{"id": "C82", "title": "A flow in fewer dimensions gives the same result with more momentum components", "statement": "Initial data for euler1 (or euler2) computed with euler2 or euler3 on the same grid, the further momentum components being zero: both runs reach the same times in the same steps with the same density, energy and momentum, and the further components stay zero; or both throw.", "quantifier": "all fluxes of the Euler equations, all reconstructions, gamma, integrators, boundaries, grids of at most as many dimensions as the smaller equation, initial data, numbers of steps", "why_tests_cant": "Each flux is written once more for every number of components (Tecno three times by hand); that they agree on every state and stay equal through every step needs an argument over all of them.", "anchors": ["alsfvm/include/alsfvm/equation/euler/Euler.hpp:161-260", "alsfvm/include/alsfvm/numflux/euler/HLL.hpp:51-115", "alsfvm/include/alsfvm/numflux/euler/HLL3.hpp:52-148", "alsfvm/include/alsfvm/numflux/euler/Tecno1.hpp", "alsfvm/include/alsfvm/reconstruction/WENOF2.hpp:34-113", "alsfvm/src/simulator/Simulator.cpp:81-232"]}
{"id": "C83", "title": "The unit of mass does not matter", "statement": "Multiplying density, momentum and energy of the initial data by a positive number multiplies the solution by it, at the same times and in the same steps. Likewise for the values of the linear equation.", "quantifier": "all positive numbers, Euler fluxes, reconstructions, gamma, integrators, boundaries, grids, initial data, numbers of steps", "why_tests_cant": "A test compares runs at one scale up to a tolerance; limiters, stencil choices and weights compare differences of values, and only an argument over all values shows whether a fixed threshold is among them.", "anchors": ["alsfvm/include/alsfvm/numflux/euler/HLL.hpp:51-115", "alsfvm/include/alsfvm/numflux/euler/HLL3.hpp:52-148", "alsfvm/include/alsfvm/numflux/Central.hpp:37-56", "alsfvm/src/reconstruction/ENOCPU.cpp", "alsfvm/include/alsfvm/reconstruction/WENO2.hpp:37-71", "alsfvm/include/alsfvm/reconstruction/MC.hpp"]}
{"id": "C84", "title": "Decomposed runs accept and refuse the same steps as the serial run", "statement": "After every step the simulator checks that the solution is admissible and stops the run otherwise. A job of several processes, each checking its own part of the grid, completes its steps exactly when the run of one process on the whole grid does, and then with the same solution.", "quantifier": "all equations and admissibility criteria, integrators, boundaries, grids, decompositions, initial data, contents of fresh memory, numbers of steps, schedules of message delivery", "why_tests_cant": "Whether a process stops depends on ghost cells that no boundary condition and no exchange fills after the last substep, hence on what fresh memory happens to hold; tests of the check use one process, and tests of the decomposition never read those cells.", "anchors": ["alsfvm/src/simulator/Simulator.cpp:81-85", "alsfvm/src/simulator/Simulator.cpp:180-189", "alsfvm/src/equation/CPUCellComputer.cpp:79-125", "alsfvm/src/memory/HostMemory.cpp:36-37", "alsfvm/src/simulator/ConservedSystem.cpp"]}
{"id": "C85", "title": "Every configured statistic is computed, for all samples at the times the configuration says", "statement": "Each node of uq.stats yields one statistic. With numberOfSaves = n it is computed for every sample exactly at the multiples of endTime/n (from 0 on if writeInitialTimestep is set, up to and including endTime); with time and timeRadius it is computed exactly at the times tau of the simulation with |tau - time| < timeRadius.", "quantifier": "all configurations, numbers of samples, sequences of timesteps, other writers of the simulator", "why_tests_cant": "There is no test of Setup::createStatistics together with the runner; whether every branch of the configuration leads to an object, and what that object does between samples with different timesteps, is a statement about all configurations and runs.", "anchors": ["alsuq/src/config/Setup.cpp:222-298", "alsuq/src/stats/TimeIntegratedWriter.cpp:24-64", "alsuq/include/alsuq/stats/TimeIntegratedWriter.hpp:23-26", "alsuq/src/stats/FixedIntervalStatistics.cpp:22-86", "alsuq/src/run/Runner.cpp:39-90"]}
{"id": "C86", "title": "The first-order HLL scheme keeps density and pressure positive", "statement": "With the Euler equations, flux hll, reconstruction none, forward Euler and a Courant number below 1 (the automatic one is 0.9), a simulation that starts from positive density and pressure never stops because of an inadmissible state: after every step every cell has positive density and pressure.", "quantifier": "all admissible initial data, numbers of momentum components, space dimensions, boundary conditions, adiabatic exponents above 1, grids, numbers of steps, writers that shorten the timestep", "why_tests_cant": "A test runs one flow. Whether the wave speeds the flux reports are large enough for the timestep to keep every state in the admissible set is an inequality over all pairs of neighbouring states, and the special case of the code for a left speed of exactly zero is met by hardly any test.", "anchors": ["alsfvm/include/alsfvm/numflux/euler/HLL.hpp:51-115", "alsfvm/src/numflux/NumericalFluxCPU.cpp", "alsfvm/src/integrator/Integrator.cpp:computeTimestep", "alsfvm/src/integrator/ForwardEuler.cpp", "alsfvm/src/simulator/Simulator.cpp:performStep", "alsfvm/src/config/SimulatorSetup.cpp:305-317"]}
{"id": "C87", "title": "Decomposed tecno runs compute the serial solution", "statement": "A run with the entropy diffusion operator of the tecno schemes on several processes ends with the same solution as the run on one process: after every step every process holds its part of the serial solution, at the same time and step number, whatever the order in which messages arrive, and no process gets stuck.", "quantifier": "all initial data, equations, diffusion matrices, fluxes, integrators, processor grids whose blocks are at least as wide as the ghost layers, boundary conditions, numbers of steps, message orders, leftover contents of the operator's own volumes", "why_tests_cant": "The operator works on its own volumes, whose ghost cells are never exchanged; whether their contents can reach the solution depends on the number of ghost layers, the width of its loops and the order of exchange and diffusion. A test runs one processor grid and one message order, and with the 42s of fresh memory a wrong interface looks like one without dissipation.", "anchors": ["alsfvm/src/simulator/ConservedSystem.cpp:operator()", "alsfvm/src/diffusion/TecnoDiffusionCPU.cpp:28-168", "alsfvm/src/reconstruction/tecno/NoReconstruction.cpp", "alsfvm/src/reconstruction/tecno/ENOCPU.cpp", "alsfvm/src/mpi/CartesianCellExchanger.cpp"]}
{"id": "C88", "title": "Results do not depend on the units of length and time", "statement": "Measuring lengths in another unit, with the save intervals scaled accordingly, gives exactly the same values at the scaled times: the same number of steps, the same saves, the same solution. Measuring time in another unit as well (velocities kappa times as large, energies kappa^2 times) gives the same solution in the new units, saved at the scaled times.", "quantifier": "all equations, fluxes, reconstructions, integrators, boundary conditions, dimensions, grids, initial data, numbers of steps, observers, scale factors", "why_tests_cant": "A test runs one configuration in one unit. A constant with a hidden dimension (a threshold, a floor on the timestep, a length used as a time) changes nothing in the configuration the test was written for and shows only for other magnitudes.", "anchors": ["alsfvm/src/integrator/Integrator.cpp:computeTimestep", "alsfvm/src/simulator/Simulator.cpp:performStep", "alsfvm/src/io/FixedIntervalWriter.cpp", "alsfvm/src/io/CoarseGrainingIntervalWriter.cpp:36-88", "alsuq/src/stats/FixedIntervalStatistics.cpp", "alsfvm/include/alsfvm/numflux/euler/HLL.hpp", "alsfvm/include/alsfvm/numflux/euler/HLL3.hpp", "alsfvm/include/alsfvm/reconstruction/WENOF2.hpp"]}
{"id": "C89", "title": "Functionals and statistics give the same on the GPU as on the CPU", "statement": "A functional or statistic offered for both platforms (identity, legendre_pointwise, log_entropy, structure_cube, structure_basic) gives on the GPU, in every order in which the threads run and the reductions combine, the value it gives on the CPU for the same parameters, volumes, previous output and weight, and accepts the same configurations.", "quantifier": "all inputs, previous outputs, weights, ghost widths, grids, distances, powers, degrees and parameters; all interleavings of the threads and orders of reduction", "why_tests_cant": "The kernels run in an order no test controls, and the differences (ghost cells counted twice, a polynomial recursion that agrees in degrees 0 and 1, parameters read on one side only) show only for particular widths, degrees or configurations; on machines without a GPU these tests are not even built.", "anchors": ["alsfvm/src/functional/IdentityCUDA.cu", "alsfvm/src/functional/LegendrePointWiseCUDA.cu", "alsfvm/src/functional/LogEntropyCUDA.cu", "alsfvm/src/functional/StructureCubeCUDA.cu", "alsfvm/include/alsfvm/functional/structure_common_cuda.hpp", "alsuq/src/stats/StructureBasicCUDA.cu", "alsuq/src/stats/StructureCubeCUDA.cu"]}
{"id": "C90", "title": "The linear equation superposes", "statement": "For the linear equation, the run from a weighted sum of initial data ends, at the same time and after the same number of steps, with the same weighted sum of the solutions of the single runs; in particular the mean of an ensemble is the run from the mean of its initial data.", "quantifier": "all numbers of samples, weights, initial data, grids up to three dimensions, boundary conditions, integrators, Courant numbers, adjustments of the time step; every flux and reconstruction offered for the equation", "why_tests_cant": "A statement about all families of runs; a test compares a few runs up to a tolerance in which limiters and the treatment of negative states by one of the fluxes disappear, or uses data for which they agree.", "anchors": ["alsfvm/include/alsfvm/equation/linear/Linear.hpp", "alsfvm/include/alsfvm/numflux/linear/Roe.hpp", "alsfvm/include/alsfvm/numflux/linear/Upwind.hpp", "alsfvm/include/alsfvm/numflux/Rusanov.hpp", "alsfvm/include/alsfvm/numflux/Central.hpp", "alsfvm/src/simulator/Simulator.cpp"]}
{"id": "C91", "title": "A run uses one version of its input files and reports it", "statement": "Whatever happens to the input files while a run is going on, every part of the run that asks for a file gets the text the file had when it was first read: all samples are set up from the same configuration and the same initial data program. The run report contains exactly the texts that were used.", "quantifier": "all sequences of requests and of changes to the files and the working directory between them; all names of files; any number of samples and processes", "why_tests_cant": "The editing of files during a run, their removal, second spellings of a name and processes that start at different times are not under a test's control, and a collision of keys in the report needs particular file names.", "anchors": ["alsutils/src/io/TextFileCache.cpp", "alsutils/src/make_basic_report.cpp", "alsfvm/src/config/SimulatorSetup.cpp", "alsuq/src/config/Setup.cpp", "alsuq/src/run/FiniteVolumeSimulatorCreator.cpp"]}
{"id": "C92", "title": "The writer and the functionals write what the configuration says", "statement": "The node fvm.writer and each node of fvm.functionals yield one output. With numberOfSaves = n it holds the solution (or the functional of it) exactly at the multiples of endTime/n up to and including endTime, with time 0 if and only if writeInitialTimestep is set, whatever other outputs there are. With time and timeRadius the writer's file holds one average over the window, which for a constant solution is that constant.", "quantifier": "all configurations of the writer and any number of functionals, all sequences of timesteps, all solutions", "why_tests_cant": "The tests create writers directly; which object a combination of children of the node creates, and what it has written at the end of a run with other adjusters of the timestep, is not tested and depends on all timesteps.", "anchors": ["alsfvm/src/config/SimulatorSetup.cpp: createWriter, createFunctionals, readSetupFromFile", "alsfvm/src/io/FixedIntervalWriter.cpp", "alsfvm/src/io/TimeIntegratedWriter.cpp", "alsfvm/src/io/CoarseGrainingIntervalWriter.cpp", "alsfvm/src/functional/TimeIntegrationFunctional.cpp", "alsfvm/src/functional/IntervalFunctionalWriter.cpp"]}
{"id": "C93", "title": "The automatic CFL number and integrator are safe", "statement": "A configuration whose cfl and integrator are \"auto\" and whose reconstruction is \"none\" runs with a CFL number and an integrator for which a scalar solution stays between the bounds of the initial data, whatever scalar equation and flux of first order is chosen; with a reconstruction it runs with 0.475 and rungekutta2. Values given explicitly are either usable or rejected: the simulated time advances in every step. Blanks around the entries do not matter.", "quantifier": "all spellings of the entries, equations, fluxes, reconstructions, grids, initial data and numbers of steps", "why_tests_cant": "The tests run a few configurations; that the automatic choices keep every solution bounded is a statement about all data and step counts, and a run that never advances does not end.", "anchors": ["alsfvm/src/config/SimulatorSetup.cpp", "alsfvm/src/integrator/IntegratorFactory.cpp", "alsfvm/src/integrator/Integrator.cpp"]}
{"id": "C94", "title": "A configuration gets the diffusion operator it names, with enough ghost layers", "statement": "The node fvm.diffusion selects exactly the operator, matrix and reconstruction it names for the equation of the configuration, or is rejected with an exception; name none needs nothing else, and names may be written as those of fluxes. In every accepted configuration the volumes have enough ghost layers for the operator to conserve: on a periodic grid what it adds sums to zero.", "quantifier": "all texts of the node and its children, equations, fluxes, reconstructions, grids up to three dimensions, periodic data", "why_tests_cant": "The number of ghost layers comes from the combination of flux, reconstruction and operator; the tests construct operators on volumes with a fixed number of layers, and a missing layer changes the sums only for particular data.", "anchors": ["alsfvm/src/diffusion/DiffusionFactory.cpp", "alsfvm/src/reconstruction/tecno/ReconstructionFactory.cpp", "alsfvm/src/config/SimulatorSetup.cpp: createDiffusion", "alsfvm/src/simulator/ConservedSystem.cpp: getNumberOfGhostCells"]}
