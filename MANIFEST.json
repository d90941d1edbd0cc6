{"claims": [
 {"property": "C01", "status": "proved", "theorems": ["C01_index_bijective", "C01_for_each_visits_box_once", "C01_neighbour_traversal", "C01_midpoints_match_cells"], "note": "C01_oversized_offset_refuted shows why the offsets must fit in the extent."},
 {"property": "C02", "status": "proved", "theorems": ["C02_periodic_boundary", "C02_periodic_boundary_mpi_sides"], "note": "Needs at least as many interior cells as ghost cells in each active direction."},
 {"property": "C03", "status": "proved", "theorems": ["C03_neumann_boundary", "C03_neumann_boundary_mpi_sides"], "note": "Needs at least as many interior cells as ghost cells; C03_neumann_small_interior_refuted shows the size check does not enforce that."},
 {"property": "C04", "status": "proved", "theorems": ["C04_net_flux_sums_to_zero", "C04_system_sums_to_zero", "C04_boundary_balance"], "note": "Exact real arithmetic; fluxes and reconstructions are arbitrary functions of their stencil."},
 {"property": "C05", "status": "proved", "theorems": ["C05_run_conserves"], "note": "any number of steps, any timestep adjusters, all four integrators, periodic; areas under 2^31 cells"},
 {"property": "C06", "status": "proved", "theorems": ["C06_uniform_preserved"], "note": "periodic or Neumann, any flux and reconstruction; areas under 2^31 cells"},
 {"property": "C07", "status": "proved", "theorems": ["C07_split_equals_whole", "C07_split_closed_form"], "note": "Smallest admissible interior: as many interior cells as ghost cells per active direction; C07_small_interior_refuted shows an out-of-bounds access below that."},
 {"property": "C08", "status": "partial", "theorems": ["C08_no_race_partial", "C08_system_no_race_partial", "C08_region_blind_races", "C08_refuted", "C08_outcome_of_every_interleaving", "C08_interleaving_flux", "C08_eno_no_race"], "note": "refuted: NoReconstruction and WENOCPU ignore the region and read every cell, so any ghost cell write of the exchange thread is a data race (C08_refuted, C08_region_blind_races for all grids). Proved race free for the reconstructions that respect the region (ENO including its divided difference loops, ReconstructionCPU), for all grids; and for every reconstruction the output and wave speeds do not depend on the interleaving when each read returns the value at some moment of the exchange."},
 {"property": "C09", "status": "proved", "theorems": ["C09_any_system", "C09_step_is_textbook", "C09_start_is_ready", "C09_linear_order"], "note": "over the reals"},
 {"property": "C10", "status": "partial", "theorems": ["C10_equal_lengths_partial", "C10_direction_scaling_refuted"], "note": "refuted: every direction is scaled by dx only; holds when the cell lengths agree"},
 {"property": "C11", "status": "proved", "theorems": ["C11_cfl_condition"], "note": "wave speed adjusters (MPI maximum) are treated under the MPI properties"},
 {"property": "C12", "status": "proved", "theorems": ["C12_saves_exact", "C12_time_increases", "C12_multiples_of_interval", "C12_whole_simulation", "C12_save_times_increase"], "note": "real arithmetic; any number of observers of all three kinds"},
 {"property": "C13", "status": "partial", "theorems": ["C13_start_time_partial", "C13_start_time_refuted"], "note": "refuted: with writeInitialTimestep and a positive start time the first save is late and the time can run backwards; without it the property holds (C13_start_time_partial)"},
 {"property": "C14", "status": "partial", "theorems": ["C14_ends_exactly_partial", "C14_number_of_saves_partial", "C14_ends_exactly_refuted"], "note": "refuted: without an observer saving at the end time the last step overshoots; exact if an observer has a save time there"},
 {"property": "C15", "status": "partial", "theorems": ["C15_exact_refuted", "C15_later_stamps_exact_partial"], "note": "refuted: the first save can be stamped with the next number or be missed by a step; from the second save on stamps are exactly round(k*T)"},
 {"property": "C16", "status": "partial", "theorems": ["C16_counts", "C16_no_deadlock", "C16_terminates", "C16_latest_delivered", "C16_length_one_partial", "C16_refuted", "C16_length_zero_blocks"], "note": "refuted: nextIndex is never advanced, so with queue length above 1 a waiting snapshot is overwritten by later ones; proved for queue length 1 and all schedules; numbers, bound, absence of deadlock and termination proved for every length above 0"},
 {"property": "C17", "status": "partial", "theorems": ["C17_writes_once_partial", "C17_empty_window_refuted", "C17_constant_refuted", "C17_configured_refuted"], "note": "refuted: constants are not reproduced; null pointer if no step falls into the window; the formula actually written is proved"},
 {"property": "C18", "status": "partial", "theorems": ["C18_ranks_and_coordinates", "C18_rank_index_wraps", "C18_blocks_partition", "C18_rejects_uneven", "C18_neighbours", "C18_neighbours_symmetric", "C18_configurations_are_paired", "C18_one_sided_periodicity_refuted"], "note": "All parts hold for every grid and processor grid when the boundary conditions agree on opposite sides about being periodic, which is all the configuration reader can produce; refuted: with a one-sided periodic grid passed through the API the neighbour relation is not symmetric (C18_one_sided_periodicity_refuted)"},
 {"property": "C19", "status": "proved", "theorems": ["C19_exchange", "C19_exchange_completes"], "note": "Element-wise interleaving of all messages; blocks at least as wide as the ghost layer (else there is no corresponding interior cell) and, in y and z, at least two cells wide (else the volume has no ghost layer there); opposite sides agree on periodicity"},
 {"property": "C20", "status": "proved", "theorems": ["C20_every_message_matched", "C20_partners_exist", "C20_faces_meet", "C20_no_deadlock"], "note": "All processor grids dividing the grid, all block sizes, paired boundary conditions (see C18)"},
 {"property": "C21", "status": "partial", "theorems": ["C21_flux_agrees", "C21_always_possible", "C21_one_cell_blocks_refuted"], "note": "refuted: blocks one cell wide in an active y or z direction count as lower dimensional and leave that direction out (C21_one_cell_blocks_refuted). For all blocks at least two cells wide in y and z and as wide as the ghost layer, periodic and Neumann, the decomposed flux computation agrees with the serial one cell by cell and in the reduced wave speed (C21_flux_agrees)."},
 {"property": "C22", "status": "proved", "theorems": ["C22_ranks_grouped", "C22_samples_partitioned", "C22_every_sample_once", "C22_spatial_group_agrees", "C22_rejects_process_count", "C22_rejects_sample_count"], "note": "MPI_Comm_split taken by its contract (rank by key, then old rank); process counts positive and their product within int"},
 {"property": "C23", "status": "partial", "theorems": ["C23_one_source_partial", "C23_independent_of_distribution_partial", "C23_many_parameters", "C23_refuted"], "note": "refuted: with two or more random parameters (equal length) a sample gets other numbers on a process that does not start at sample 0; holds when at most one parameter draws random numbers"},
 {"property": "C24", "status": "partial", "theorems": ["C24_within_process", "C24_across_processes_partial", "C24_refuted"], "note": "refuted: with two or more random parameters the second process reuses numbers of the first for other samples; proved within one process for all configurations and across processes for one random parameter"},
 {"property": "C25", "status": "partial", "theorems": ["C25_uniform_in_bounds_partial", "C25_factory_reads_bounds", "C25_refuted", "C25_binary64_in_bounds", "C25_binary64_overflow_refuted"], "note": "refuted: Setup overwrites the configured bounds by 0 and 1; the distribution itself respects its bounds, over the reals and in binary64 unless upper-lower overflows"},
 {"property": "C26", "status": "partial", "theorems": ["C26_midpoints_partial", "C26_refuted", "C26_configured_interval_refuted"], "note": "refuted for a non-zero start index (values shifted, last ones outside the interval) and configured a, b are overwritten; proved for samples 0..M-1"},
 {"property": "C27", "status": "partial", "theorems": ["C27_mean_and_variance", "C27_load_balanced", "C27_binary64_negative_refuted"], "note": "Proved in exact arithmetic for every distribution (in particular the load balancer's) and every order of reduction. Non-negativity is refuted: in binary64 six equal samples of 54703907 give a negative variance (mean of squares minus squared mean cancels)."},
 {"property": "C28", "status": "proved", "theorems": ["C28_one_point_moment"], "note": "Exact arithmetic; every distribution of samples, every order of reduction, every power, every time."},
 {"property": "C29", "status": "partial", "theorems": ["C29_last_samples_only", "C29_one_sample_each_partial", "C29_mean_of_variations_refuted"], "note": "refuted: computeStatistics assigns instead of adding, so only the last sample of each process counts; C29_last_samples_only says exactly what is computed; it is the mean when every process has one sample."},
 {"property": "C30", "status": "partial", "theorems": ["C30_contract", "C30_identity", "C30_legendre_pointwise", "C30_legendre", "C30_bv_line", "C30_bv_plane", "C30_moment_partial", "C30_moment_with_ghost_cells_throws", "C30_moment_refuted", "C30_structure_cube_computed", "C30_structure_cube_refuted", "C30_structure_base_computed", "C30_structure_base_partial", "C30_structure_base_refuted"], "note": "refuted: structure_cube keeps only the last sample of each process, moment throws if there are ghost cells, structure_base leaves out cells if there are ghost cells; proved for every functional that keeps the contract of Functional.hpp (identity, legendre, bv, moment without ghost cells)"},
 {"property": "C31", "status": "proved", "theorems": ["C31_each_offset_once"], "note": "The loop body is run exactly once per offset of maximum norm h and for no other; count (2h+1)^d-(2h-1)^d; all h>=1, d=1..3."},
 {"property": "C32", "status": "partial", "theorems": ["C32_same_times", "C32_times_determined", "C32_unaligned_end_refuted"], "note": "refuted for intervals that do not divide the end time: the last snapshot may be taken for some samples only; proved when the end time is a save time, which is what the configuration produces (interval = endTime / numberOfSaves)"},
 {"property": "C33", "status": "partial", "theorems": ["C33_scalar_consistent_partial", "C33_linear_roe_refuted", "C33_euler_consistent_partial", "C33_sonic_refuted"], "note": "refuted: the Roe flux of the linear equation is inconsistent for u < 0 (C33_linear_roe_refuted) and HLL, HLL3 return zero at sonic states u = c (C33_sonic_refuted); every other scalar and Euler flux is consistent at all admissible states, HLL and HLL3 at all non-sonic ones."},
 {"property": "C34", "status": "proved", "theorems": ["C34_burgers", "C34_buckley_leverett", "C34_unique"], "note": "exact real arithmetic"},
 {"property": "C35", "status": "partial", "theorems": ["C35_maximum_principle_partial", "C35_rectangular_cells_refuted", "C35_buckley_leverett_refuted"], "note": "Maximum principle after any number of steps, and total variation in 1D, with CFL number up to 1, for Burgers (Godunov, Roe, Rusanov), linear (upwind, Roe, Rusanov) and cubic (Roe, Rusanov), forward Euler / RK2 / RK3, periodic and Neumann, on grids with equal cell lengths in the active directions. refuted: with different cell lengths (dt/dx is used in all directions) and for Buckley-Leverett."},
 {"property": "C36", "status": "proved", "theorems": ["C36_potential", "C36_two_point", "C36_net_flux_conserves_entropy", "C36_total_entropy_constant", "C36_other_potentials_refuted"], "note": "Burgers is the only scalar equation offered with the entropy conservative flux; the potentials of the other scalar equations are shown not to fit their flux functions"},
 {"property": "C37", "status": "proved", "theorems": ["C37_consistent", "C37_symmetric", "C37_entropy", "C37_order"], "note": ""},
 {"property": "C38", "status": "partial", "theorems": ["C38_closed_form_partial", "C38_sums_to_zero_partial", "C38_dissipates_partial", "C38_weights", "C38_burgers_square", "C38_euler_square", "C38_euler_inner", "C38_one_ghost_layer_refuted"], "note": "Proved with at least two ghost layers, for any eigenvector matrix, both dissipation matrices and any previous contents of the operator's scratch volumes. refuted: with one ghost layer (what the operator asks for) the last interface uses cells that are never written, so the term is not conservative and may increase the entropy."},
 {"property": "C39", "status": "proved", "theorems": ["C39_prim_of_cons", "C39_cons_of_prim", "C39_extra", "C39_flux"], "note": "Any dimension, exact real arithmetic."},
 {"property": "C40", "status": "partial", "theorems": ["C40_direction_0", "C40_eigenvalues", "C40_other_directions_refuted"], "note": "refuted: in the directions 1 and 2 the eigenvectors belong to the rotated state and are not rotated back, so the columns are no eigenvectors (at every state at rest). Direction 0 in 1-3 dimensions, and all eigenvalues and the wave speed in all directions, are proved."},
 {"property": "C41", "status": "proved", "theorems": ["C41_wenof2_positive", "C41_wenof2_residual"], "note": "exact arithmetic; every neighbour state, lower bound 1/20 of the cell's density and pressure"},
 {"property": "C42", "status": "proved", "theorems": ["C42_limiters"], "note": "exact arithmetic; every conserved variable of every equation"},
 {"property": "C43", "status": "partial", "theorems": ["C43_exact", "C43_order2_stencil", "C43_stencil_unique", "C43_order3_stencil_refuted", "C43_order4_stencil_refuted"], "note": "polynomial exactness proved for orders 2, 3, 4; stencil rule proved for order 2; refuted: for orders 3 and 4 the code takes stencils across a jump"},
 {"property": "C44", "status": "proved", "theorems": ["C44_convex", "C44_constants", "C44_linear_limit", "C44_indicators"], "note": "exact arithmetic; weno2 (WENO2.hpp), weno3 and WENOCPU<2>"},
 {"property": "C45", "status": "partial", "theorems": ["C45_what_is_computed", "C45_means_partial", "C45_constants_partial", "C45_equal_sizes", "C45_ghost_cells_refuted", "C45_three_dimensions_refuted"], "note": "refuted: with ghost cells the averaged fine cells are shifted by the ghost width, and in 3D the sum is divided by 16 instead of 8; proved for 1D/2D without ghost cells; C45_what_is_computed gives the exact result in all cases"},
 {"property": "C46", "status": "partial", "theorems": ["C46_low_degrees_partial", "C46_refuted", "C46_every_degree_wrong", "C46_degree_limit_refuted", "C46_parity", "C46_bounded"], "note": "refuted: the factor 2n-1 is missing, every degree from 2 on is wrong, and degrees above 11 are not offered; degrees 0 and 1 are right; parity and the bound on [-1,1] hold"},
 {"property": "C47", "status": "partial", "theorems": ["C47_line_partial", "C47_directional", "C47_translation_invariant", "C47_zero_iff_constant", "C47_directions_accepted", "C47_directions_refuted", "C47_plane_refuted", "C47_plane_partial"], "note": "refuted: direction equal to the number of dimensions is accepted (returns 0), and the 2D isotropic version skips the first row and column; the 1D and directional statements are proved C47_plane_partial says exactly what the 2D isotropic version computes."},
 {"property": "C48", "status": "partial", "theorems": ["C48_scalar_ops_partial", "C48_memory_ops_partial", "C48_size_t_ops", "C48_linear_combination", "C48_size_mismatch", "C48_add_short_refuted", "C48_large_areas", "C48_all_sizes_refuted"], "note": "refuted: loops counting with int leave elements untouched from 2^31 elements on; proved below 2^31, and for all sizes for the loops counting with size_t"},
 {"property": "C49", "status": "partial", "theorems": ["C49_copies_box_partial", "C49_copies_interior_partial", "C49_small_buffer", "C49_buffer_overrun_refuted"], "note": "refuted: the stated buffer size is not checked, a smaller buffer is overrun; contents and order proved when the buffer has room for the box"},
 {"property": "C50", "status": "proved", "theorems": ["C50_check_scalar", "C50_check_euler", "C50_snapshots_admissible", "C50_snapshots_admissible_scalar", "C50_step_throws", "C50_simulator_checks"], "note": "binary64; incrementSolution is an arbitrary function"},
 {"property": "C51", "status": "partial", "theorems": ["C51_windows_partial", "C51_overlap_refuted"], "note": "refuted: overlapping windows give negative timesteps; proved for windows that do not overlap"},
 {"property": "C52", "status": "partial", "theorems": ["C52_structure_basic_partial", "C52_boundary_of_other_side_refuted", "C52_two_points_computed", "C52_two_points_partial", "C52_second_direction_refuted", "C52_ghost_cells_twice_refuted"], "note": "refuted: structure_2pt uses the first direction twice and subtracts the ghost cells twice; structure_basic takes the boundary type of side number direction, not of the direction. Positive parts: structure_basic over all interior cells with that boundary type; structure_2pt without ghost cells and with equal directions."},
 {"property": "C53", "status": "partial", "theorems": ["C53_eigenvalue_is_derivative", "C53_wave_speed_bounds_partial", "C53_buckley_leverett_refuted"], "note": "refuted: for Buckley-Leverett the states 0 and 1 report wave speed 0 although f' = 2 in between; proved for Burgers, cubic and linear"},
 {"property": "C54", "status": "partial", "theorems": ["C54_entropy_gradient", "C54_potential", "C54_two_point_partial", "C54_net_flux_conserves_entropy_partial", "C54_total_entropy_constant_partial", "C54_three_dimensions_refuted"], "note": "refuted in three dimensions (C54_three_dimensions_refuted: F[3] is always 0 and direction 2 is not implemented); proved in one and two dimensions."},
 {"property": "C55", "status": "partial", "theorems": ["C55_tends_to_point_flux_refuted"], "note": "refuted: neighbouring states with equal density and pressure but different velocity get mass flux 0."},
 {"property": "C56", "status": "partial", "theorems": ["C56_stable_partial", "C56_euler_partial", "C56_total_entropy_decreases_partial", "C56_burgers_partial", "C38_one_ghost_layer_refuted", "C54_three_dimensions_refuted"], "note": "Semi-discrete entropy inequality for Euler 1D/2D and Burgers with at least two ghost layers. Missing: one ghost layer and 3D Euler, where it is refuted."},
 {"property": "C57", "status": "proved", "theorems": ["C57_cell_positions", "C57_blocks_meet"], "note": "Exact real arithmetic"},
 {"property": "C58", "status": "proved", "theorems": ["C58_runs_agree", "C58_covers_equations"], "note": "Whole runs in exact arithmetic, all schedules of message delivery; diffusion is not part of the model of a step here. The admissibility check is in C84."},
 {"property": "C59", "status": "partial", "theorems": ["C59_bounded_variation_partial", "C59_plane_partial"], "note": "Proved for one-dimensional volumes (the two-dimensional getTotalVariation is a different expression, see C47). C59_plane_partial: in two dimensions it is the sample mean of the expression computed."},
 {"property": "C60", "status": "partial", "theorems": ["C60_structure_cube", "C60_many_cells_refuted"], "note": "refuted: for grids of 2^31 or more cells the product of the cell counts overflows an int (undefined behaviour). Proved for all grids below that bound."},
 {"property": "C61", "status": "partial", "theorems": ["C61_identity", "C61_moment", "C61_bv_line", "C61_bv_plane", "C61_legendre_pointwise", "C61_legendre", "C61_log_entropy", "C61_legendre_unit_cells_refuted", "C61_structure_cube_computed", "C61_structure_cube_refuted", "C61_structure_base_computed", "C61_structure_base_refuted"], "note": "refuted: structure_cube zeroes the output and ignores the weight, structure_base ignores the weight, the Legendre functionals throw for some cell lengths; the contract is proved for the other functionals, and what the two structure functionals compute instead. The Legendre polynomials themselves are C46."},
 {"property": "C62", "status": "partial", "theorems": ["C62_time_integrated", "C62_structure_cube_refuted"], "note": "refuted for structure_cube (weight ignored, earlier steps overwritten); proved for every functional that keeps the contract of Functional.hpp"},
 {"property": "C63", "status": "partial", "theorems": ["C63_time_integration", "C63_interval", "C63_constant", "C63_exact_integral_refuted", "C63_structure_cube_refuted", "C63_structure_base_refuted"], "note": "refuted for structure_cube and structure_base (weight ignored); proved for every functional that keeps the contract; the sum is off the integral of a constant by at most one timestep (C63_constant) and in general not exact (C63_exact_integral_refuted)"},
 {"property": "C64", "status": "proved", "theorems": ["C64_eno_forgets", "C64_history_independent"], "note": "ENOCPU with its arrays refines the pointwise ENO reconstruction; the asserts hold when the volume has at least order ghost cells. Assumes existing arrays either have the extents of the volume or another total size."},
 {"property": "C65", "status": "partial", "theorems": ["C65_sums_to_zero_partial", "C65_closed_form_partial", "C65_dissipates_partial", "C65_fresh_scratch_fits", "C65_ghost_layers_refuted", "C65_order_three_refuted", "C65_order_four_refuted", "C65_y_direction_refuted"], "note": "refuted: with the number of ghost cells the operator asks for (order) conservation fails (C65_ghost_layers_refuted, the configuration of examples/tecnoburgers); eno3 and eno4 can produce entropy (stencil choice not nested); in two dimensions eno2 can produce entropy because neighbours are read at memory offset 1 in every direction. Proved with order+1 ghost layers: conservation in any dimension, closed form in one dimension, dissipation for eno2 in one dimension."},
 {"property": "C66", "status": "proved", "theorems": ["C66_independent_iterations", "C66_compute_flux", "C66_right_hand_side", "C66_memory_operations", "C66_eno", "C66_tecno_eno"], "note": "every interleaving of the accesses has the outcome of the sequential loop; the elements of a cell are one access, omp simd inside an iteration is read as the sequential loop, NaN wave speeds are not modelled"},
 {"property": "C67", "status": "partial", "theorems": ["C67_parallel_file_partial", "C67_uneven_grid_throws", "C67_serial_file_partial", "C67_same_file_partial", "C67_every_grid_refuted", "C67_axis_names_refuted", "C67_thin_blocks_refuted"], "note": "refuted: the parallel writer throws on every grid whose first and last active sizes differ, x and z (2D: y) are interchanged in the file, and one-cell-thick blocks are stored the other way round; proved for even-sided grids and thick blocks: every cell once, no ghosts, same file for every decomposition and order of writes"},
 {"property": "C68", "status": "partial", "theorems": ["C68_serial_file_partial", "C68_last_block", "C68_other_blocks_lost", "C68_decomposed_sample_refuted"], "note": "refuted: with several processes per sample the dataset has the size of one block and only the last writer's block survives; proved with one process per sample"},
 {"property": "C69", "status": "partial", "theorems": ["C69_sample_files_partial", "C69_balanced_run_partial", "C69_different_steps", "C69_repeated_sample", "C69_different_steps_refuted", "C69_more_steps_later_refuted", "C69_every_run_refuted"], "note": "refuted: samples with different numbers of snapshots (no numberOfSaves) make the run hang or fail; proved for equal numbers of snapshots, for every distribution the load balancer makes; a sample already in the file is refused"},
 {"property": "C70", "status": "partial", "theorems": ["C70_region", "C70_same_as_cpu", "C70_speed_buffer", "C70_gpu_partial", "C70_gpu_refuted"], "note": "refuted: C70_gpu_refuted: the temporary volumes are allocated with the ghost cells of the flux; when the conserved variables have more (diffusion operator with a wider stencil) the last interior cells are never updated. C70_gpu_partial: the whole statement when both numbers agree, for all fluxes, reconstructions, dimensions, extents below 2^31 cells and schedules; C70_region: every non-empty region as used in decomposed runs; C70_same_as_cpu: same output and wave speeds as the CPU model; C70_speed_buffer: the buffer of the wave speeds is large enough. The arrays of divided differences of ENOCUDA are not modelled."},
 {"property": "C71", "status": "partial", "theorems": ["C71_boundary", "C71_boundary_serial", "C71_race", "C71_no_race_refuted"], "note": "refuted: C71_race, C71_no_race_refuted: the thread after the last one is not turned away (line 35 tests > instead of >=) and in one dimension always stores into an element another thread stores into. C71_boundary, C71_boundary_serial: if two stores of one value into one element count as one store, all interleavings end with the images prescribed by the boundary condition, for all dimensions, ghost cells, sides left to MPI and numbers of variables."},
 {"property": "C72", "status": "partial", "theorems": ["C72_check_some", "C72_check_partial", "C72_check_scalar_partial", "C72_step_not_refused", "C72_bad_cells_accepted", "C72_check_refuted", "C72_scalar_refuted", "C72_max_speed"], "note": "refuted: the answers of the cells are combined with a maximum, so one admissible cell makes the check succeed (C72_check_some: exactly then), whatever the others hold; C72_step_not_refused: such a step is not refused; C72_check_refuted, C72_scalar_refuted, C72_bad_cells_accepted: volumes with a not-a-number, an infinity or a negative pressure are accepted. What holds: C72_check_partial, C72_check_scalar_partial (admissible volumes are accepted) and C72_max_speed (largest wave speed as on the CPU, for all schedules)."},
 {"property": "C73", "status": "partial", "theorems": ["C73_elementwise", "C73_memory_operations", "C73_size_mismatch", "C73_variation_plane_partial", "C73_variation_direction_partial", "C73_variation_line_outside", "C73_variation_refuted", "C73_variation_3d_refused"], "note": "refuted: C73_variation_line_outside, C73_variation_refuted: the total variation without direction of every one-dimensional area reads outside of it (the kernel tests ny > 0 instead of ny > 1); C73_variation_3d_refused: three dimensions are refused, with a direction too. What holds: C73_elementwise and C73_memory_operations (all arithmetic operations, all schedules, as on the host), C73_size_mismatch, C73_variation_plane_partial and C73_variation_direction_partial (two-dimensional areas; one-dimensional ones with a direction)."},
 {"property": "C74", "status": "partial", "theorems": ["C74_race", "C74_burgers_any_order", "C74_finishes", "C74_conserves_refuted", "C74_race_refuted"], "note": "refuted: the view of the right entropy variables is made from the left ones, so every run with four cells or more in the first direction has a data race; in all finished runs with Burgers, whatever the order, the added term is the given closed form, which does not sum to zero. C74_finishes: thread order gives a finished run for every equation."},
 {"property": "C75", "status": "partial", "theorems": ["C75_exchange_partial", "C75_forward_euler", "C75_no_deadlock", "C75_exchange_refuted", "C75_extract", "C75_insert", "C75_insert_race"], "note": "refuted: exchanges deliver in all executions if followed by a reduction, so always with ForwardEuler; with every Runge-Kutta integrator there is an execution in which a process receives data of a later exchange, since send buffers are overwritten before the sends are waited for. No deadlock. Extraction is race free; insertions race exactly if there are neighbours in two directions, at edge cells only."},
 {"property": "C76", "status": "partial", "theorems": ["C76_parameters_partial", "C76_gamma_refuted", "C76_library_names_win", "C76_configured_parameters", "C76_samples_independent", "C76_snippet", "C76_first_state", "C76_global_program", "C76_first_value", "C76_decomposition_partial", "C76_decomposition_refuted"], "note": "refuted: a parameter with a name that math or numpy export is overwritten by the import before the program runs (the equation parameter gamma of the Euler equations always is), and snippets that use i, j, k or init_global programs that use the number of cells or corners give other states in decomposed runs. Proved: without such names the program sees the values of the sample; every cell, ghost cells included, gets the value at its centre or image; exceptions abort; samples are independent; blocks agree with the serial state for snippets that do not use the indices."},
 {"property": "C77", "status": "partial", "theorems": ["C77_accepted", "C77_rejected", "C77_ghost_cells", "C77_suited", "C77_right_hand_side_partial", "C77_wide_right_hand_side", "C77_linear_exact", "C77_half_cell", "C77_unsuited_refuted", "C77_right_hand_side_refuted", "C77_history_refuted", "C77_mirror_refuted", "C77_scalar_classes", "C77_euler_classes", "C77_all_classes"], "note": "acceptance, ghost width and the suited pairs proved; refuted: tecno4/godunov4 with eno3, eno4, weno3 and tecno6/godunov6 with eno4 read cells of the left array that the reconstruction never wrote: they hold the initial 0, or in 2-D with weno3 what an earlier direction left there, so constants are not preserved and two computations on the same state differ; wide fluxes with a reconstruction read left values only: a shift by half a cell, mirror symmetry lost"},
 {"property": "C78", "status": "partial", "theorems": ["C78_scalar_axes_partial", "C78_euler_axes_partial", "C78_lengths_refuted", "C78_tecno_refuted"], "note": "refuted: the right-hand side of every direction is scaled with dt divided by the cell length along x, so that exchanging axes changes the solution unless the length along the first axis stays the same; the Tecno fluxes of Euler<3> are zero along z. Proved for all runs otherwise (scalar equations with every flux and reconstruction; Euler with every flux and reconstruction)."},
 {"property": "C79", "status": "partial", "theorems": ["C79_burgers_mirror_partial", "C79_euler_mirror_partial", "C79_hll_face_partial", "C79_hll_refuted", "C79_eno_refuted"], "note": "refuted: HLL returns the zero flux when its left speed is zero (and not when the right one is), and ENO takes the right stencil in a tie; both change a run. Proved for all runs with central, Rusanov, Godunov, Roe, godunov4/6 (Burgers), central and Tecno (Euler), with none, weno2, weno3, mc, mm; missing: HLL and HLL3 at run level with nonzero speeds (one face of HLL is proved), wenof2."},
 {"property": "C80", "status": "proved", "theorems": ["C80_rotation", "C80_invariant"], "note": "for all fluxes, reconstructions, integrators, grids and rotations"},
 {"property": "C81", "status": "partial", "theorems": ["C81_accepted", "C81_enough_partial", "C81_too_few", "C81_refuted"], "note": "refuted: euler1 on a grid with two or three directions and euler2 on a grid with three are accepted, and every evaluation of the right-hand side is then undefined (C81_too_few, C81_refuted); with a component for every direction the right-hand side is that of M_Flux with total reads (C81_enough_partial)"},
 {"property": "C82", "status": "proved", "theorems": ["C82_more_components", "C82_components_stay_zero"], "note": "The admissibility check of the larger equation must give the same answer on padded states."},
 {"property": "C83", "status": "partial", "theorems": ["C83_euler_units_partial", "C83_linear_partial", "C83_tecno_face_partial", "C83_weno_refuted"], "note": "refuted: the WENO weights contain the fixed number 1e-8, so doubling the data does not double the solution (one upwind step of the linear equation with weno2). Proved for HLL, HLL3 and central with none, ENO and the MC/minmod limiters, and for all fluxes of the linear equation with these; Tecno for one face between states with positive density and pressure; a whole run with Tecno, where reconstructed states need not be positive, is missing."},
 {"property": "C84", "status": "partial", "theorems": ["C84_accepted", "C84_refused", "C84_line_partial", "C84_gas_cone", "C84_refuted"], "note": "refuted: in three dimensions two processes refuse the first step of a gas at rest that one process accepts, because the check reads ghost cells computed from the initial contents (42) of fresh memory. Proved: what the processes accept the serial run accepts, with the same solution, hence what it refuses they refuse; the converse on a line with forward Euler, when the admissible states form a cone (C84_gas_cone) and fresh memory is admissible."},
 {"property": "C85", "status": "partial", "theorems": ["C85_saves_partial", "C85_window_computed", "C85_window_refuted", "C85_window_mean_refuted", "C85_dropped_refuted", "C85_zero_saves_refuted"], "note": "refuted: a statistic with time and timeRadius ignores both and is computed after every step of every sample, so its means mix different times (and the reductions of several processes do not match); a node with neither numberOfSaves nor time is dropped silently; numberOfSaves 0 is accepted and never computed. Proved for numberOfSaves > 0 in exact arithmetic: exact save times for all samples (binary64: see C15)."},
 {"property": "C86", "status": "partial", "theorems": ["C86_hll_positive_partial", "C86_long_cells_refuted"], "note": "proved for cells that are not longer in any active direction than in x (every number of dimensions, steps, momentum components, boundary, every Courant number below 1, adjusters that only shorten the timestep); refuted for cells longer in y than in x, where all differences are divided by the length in x (compare C10)"},
 {"property": "C87", "status": "partial", "theorems": ["C87_runs_agree", "C87_plain_partial", "C87_eno_partial", "C87_one_layer_refuted"], "note": "refuted: with the one ghost layer the operator without reconstruction asks for, every process leaves the dissipation at the last interface of its block out (C87_one_layer_refuted). Proved: any operator that adds a term on the star stencil (C87_runs_agree), the operator without reconstruction with two layers in any dimension, with ENO reconstruction and order + 1 layers in one dimension. Missing: ENO in more dimensions, where the operator itself mixes directions (C65_y_direction_refuted)."},
 {"property": "C88", "status": "partial", "theorems": ["C88_lengths", "C88_euler_time_partial", "C88_scalar_time_partial", "C88_admissible", "C88_coarse_refuted"], "note": "other unit of length: proved for every equation, flux, reconstruction, integrator, boundary condition and observer; other unit of time: proved for the Euler equations with hll, hll3, central and every reconstruction, and for Burgers and cubic without the entropy conservative fluxes and WENO, observed at fixed intervals; refuted for the coarse graining writer, which uses a cell length as a time"},
 {"property": "C89", "status": "partial", "theorems": ["C89_identity", "C89_identity_variables_refuted", "C89_legendre_partial", "C89_legendre_refuted", "C89_legendre_unit_cells_refuted", "C89_log_entropy", "C89_structure_cube", "C89_structure_cube_functional", "C89_structure_basic_computed", "C89_structure_basic_partial", "C89_structure_basic_refuted"], "note": "refuted: the GPU statistic structure_basic takes the ghost cells off twice and leaves the last cells out; the GPU functional legendre_pointwise uses another recursion and differs from degree 2 on, and accepts grids with unit cells in y that the CPU refuses; identity honours the parameter variables on the GPU only. Proved for every schedule: identity over all variables, legendre_pointwise up to degree 1, log_entropy, structure_cube as statistic and functional, structure_basic without ghost cells."},
 {"property": "C90", "status": "partial", "theorems": ["C90_superposition_partial", "C90_roe_refuted", "C90_reconstruction_refuted", "C90_weno_refuted"], "note": "refuted: flux roe takes max(u, 0), so it does not move negative states; the reconstructions eno2, mc, mm, weno2 are not linear. Proved for the fluxes central, rusanov, upwind without reconstruction and any number of weighted samples."},
 {"property": "C91", "status": "partial", "theorems": ["C91_first_text", "C91_same_text", "C91_samples_partial", "C91_report_partial", "C91_plain_names", "C91_report_refuted", "C91_spellings_refuted", "C91_processes_refuted", "C91_samples_refuted"], "note": "refuted: /a/b and /a_dash_b have the same key in the report, one text is lost; the cache compares spellings, so one file under two names can give two texts; each process has its own cache and only the first one reports; a sample after the removal of the configuration throws although its text is cached. Proved: one text per absolute name for any sequence of requests, all later samples as the first while the configuration file exists, the report exact when keys do not collide, and no collision for names without dash and DOT."},
 {"property": "C92", "status": "partial", "theorems": ["C92_saves_partial", "C92_integral", "C92_window_dropped_refuted", "C92_coarse_initial_refuted", "C92_functional_initial_refuted", "C92_zero_saves_refuted", "C92_late_functional_refuted", "C92_late_writer_refuted", "C92_both_refuted", "C92_window_refuted"], "note": "Proved: every sound node is created, a run that reaches the end ends exactly at the end time, and every node that counts saves has written exactly its saves (functionals always with time 0); a functional with a window and no numberOfSnapshots writes, among any other outputs, one entry at the end: the sum over the steps that end in the closed window. refuted: a writer's window without numberOfSnapshots is dropped and every step written; coarse saves and functionals ignore writeInitialTimestep; numberOfSaves 0 writes nothing; a window that the simulation does not finish writes nothing (writer) or dereferences a null pointer (functional, if the first snapshot is not reached); a functional with saves and a window forgets the saves; the average of a constant v over a window is v (time + radius - radius/n) / (2 radius)."},
 {"property": "C93", "status": "partial", "theorems": ["C93_auto_partial", "C93_reconstruction", "C93_integrator_names", "C93_buckley_leverett_refuted", "C93_zero_cfl_refuted", "C93_blanks_refuted"], "note": "With auto and no reconstruction the CFL number is 0.9 and the integrator forward Euler; maximum principle and total variation (1D) after any number of steps for Burgers, linear and cubic with the monotone fluxes, on grids with equal cell lengths. With a reconstruction 0.475 and rungekutta2. lexical_cast is a parameter. refuted: Buckley-Leverett with everything automatic leaves the range in one step; the CFL number 0 is accepted and the time never advances; blanks around auto are not ignored."},
 {"property": "C94", "status": "partial", "theorems": ["C94_selected", "C94_rejected", "C94_conserves_partial", "C94_two_layers_refuted", "C94_none_refuted", "C94_capitals_refuted"], "note": "Selection characterised exactly, everything else throws (cpu). Conservation for every accepted configuration whose scheme has more ghost layers than the order of the operator's ENO reconstruction, through C65. refuted: tecno1 with eno2 is accepted with two layers and does not conserve; a node with name none is rejected when its reconstruction is missing or not one of the operator's; capitals are accepted for fluxes only."}
]}
