{
 "claims": [
  {
   "property": "C01",
   "status": "proved",
   "theorems": [
    "C01_grid_can_be_built",
    "C01_storage_bijection"
   ],
   "note": "All sizes whose padded count fits an int; under Trap additionally the masked terms must fit (see C09)."
  },
  {
   "property": "C02",
   "status": "proved",
   "theorems": [
    "C02_array_history"
   ],
   "note": "Histories are lists of writes; any read is the final observation of a prefix."
  },
  {
   "property": "C03",
   "status": "partial",
   "theorems": [
    "C03_node_positions_partial",
    "C03_centres_default_padding_partial",
    "C03_refuted"
   ],
   "note": "Refuted as stated: generate subtracts one cell (mask), not the padding. Exact formula for every padding; cell centres for padding 1."
  },
  {
   "property": "C04",
   "status": "proved",
   "theorems": [
    "C04_base_node_encloses",
    "C04_unrepresentable_is_undefined"
   ],
   "note": "Exact reals. Also proved: positions whose lattice coordinate is no int are undefined behaviour."
  },
  {
   "property": "C05",
   "status": "proved",
   "theorems": [
    "C05_fresh_array",
    "C05_fresh_fields"
   ],
   "note": "Arrays of any element type, all fields of Levelset and LevelsetVelocity."
  },
  {
   "property": "C06",
   "status": "proved",
   "theorems": [
    "C06_assign_deep_copy"
   ],
   "note": "Values are copied; later writes to either array do not affect the other."
  },
  {
   "property": "C07",
   "status": "partial",
   "theorems": [
    "C07_total_cells_partial",
    "C07_refuted",
    "C07_short_constructors"
   ],
   "note": "Refuted when an axis beyond DIM has more than one cell; proved when unused axes have one cell."
  },
  {
   "property": "C08",
   "status": "partial",
   "theorems": [
    "C08_unused_coordinates_ignored",
    "C08_refuted"
   ],
   "note": "Refuted; proved instead: the coordinates beyond DIM never influence the slot."
  },
  {
   "property": "C09",
   "status": "partial",
   "theorems": [
    "C09_overflow_exact",
    "C09_generate_overflows",
    "C09_refuted"
   ],
   "note": "Refuted in 1-D (n=800 million, padding 1). Exact overflow condition proved; no overflow in 3-D."
  },
  {
   "property": "C10",
   "status": "partial",
   "theorems": [
    "C10_lookup_overflows",
    "C10_lookup_defined_partial",
    "C10_refuted"
   ],
   "note": "Refuted in 1-D and 2-D for every grid and position under the C++ standard (INT_MAX + padding). Defined in 3-D, and under wrap-around."
  },
  {
   "property": "C11",
   "status": "partial",
   "theorems": [
    "C11_repadding_moves_cells",
    "C11_larger_padding_out_of_bounds",
    "C11_refuted"
   ],
   "note": "Refuted: every other padding changes the slot of cell (0,0,0); larger paddings read out of bounds."
  },
  {
   "property": "C12",
   "status": "partial",
   "theorems": [
    "C12_min_exact",
    "C12_refuted"
   ],
   "note": "Refuted on ties of the first two components; exact characterisation proved."
  },
  {
   "property": "C13",
   "status": "proved",
   "theorems": [
    "C13_approximate_equality"
   ],
   "note": "Exact reals."
  },
  {
   "property": "C14",
   "status": "proved",
   "theorems": [
    "C14_dot_is_transpose_product",
    "C14_dot_identity_linear"
   ],
   "note": "Exact reals."
  },
  {
   "property": "C15",
   "status": "partial",
   "theorems": [
    "C15_test_build_partial",
    "C15_release_build_exits",
    "C15_refuted"
   ],
   "note": "Refuted: release builds exit for every vector; test builds read out of range for short ones. Exact behaviour proved."
  },
  {
   "property": "C16",
   "status": "proved",
   "theorems": [
    "C16_dpoly_is_derivative",
    "C16_cubic_exact"
   ],
   "note": "Exact reals, any padding >= 1, samples at the positions the grid reports."
  },
  {
   "property": "C17",
   "status": "proved",
   "theorems": [
    "C17_mixed_is_derivative",
    "C17_bicubic_exact"
   ],
   "note": "As C16 in 2-D; dpoly/tricubic flags proved to be partial derivatives."
  },
  {
   "property": "C18",
   "status": "proved",
   "theorems": [
    "C18_mixed_is_derivative",
    "C18_tricubic_exact"
   ],
   "note": "As C16 in 3-D."
  },
  {
   "property": "C19",
   "status": "proved",
   "theorems": [
    "C19_node_data",
    "C19_node_value_limited"
   ],
   "note": "Arbitrary data, padding 1; also with limiting for phi."
  },
  {
   "property": "C20",
   "status": "proved",
   "theorems": [
    "C20_psi_is_gradient"
   ],
   "note": "Includes cell faces."
  },
  {
   "property": "C21",
   "status": "proved",
   "theorems": [
    "C21_continuously_differentiable"
   ],
   "note": "Epsilon-delta over all positions of the lattice."
  },
  {
   "property": "C22",
   "status": "proved",
   "theorems": [
    "C22_control_values",
    "C22_limited_interpolant_1d"
   ],
   "note": "Exact result of limiting for all data, and the limited 1-D interpolant."
  },
  {
   "property": "C23",
   "status": "proved",
   "theorems": [
    "C23_defined_inside",
    "C23_linear_defined_inside",
    "C23_out_of_bounds_outside"
   ],
   "note": "Defined inside for every dimension and padding >= 1; outside the lattice the 1-D read is out of bounds."
  },
  {
   "property": "C24",
   "status": "proved",
   "theorems": [
    "C24_compute_frame",
    "C24_linear_compute_frame"
   ],
   "note": "Any scalar type; grid of positions may differ from the level-set grid. Same for linear interpolation."
  },
  {
   "property": "C25",
   "status": "proved",
   "theorems": [
    "C25_linear_between_neighbours",
    "C25_linear_exact_on_affine"
   ],
   "note": ""
  },
  {
   "property": "C26",
   "status": "proved",
   "theorems": [
    "C26_hull",
    "C26_enclosing_cell"
   ],
   "note": "Enclosing cell proved unique."
  },
  {
   "property": "C27",
   "status": "proved",
   "theorems": [
    "C27_second_order_exact",
    "C27_second_order_cubics"
   ],
   "note": "Exact reals; also the exact error h^2 * (coefficient of the third power) on all cubics."
  },
  {
   "property": "C28",
   "status": "proved",
   "theorems": [
    "C28_third_order_exact"
   ],
   "note": "Exact reals; two ghost layers."
  },
  {
   "property": "C29",
   "status": "partial",
   "theorems": [
    "C29_second_order_in_bounds_partial",
    "C29_second_order_vector_in_bounds_partial",
    "C29_third_order_two_layers_partial",
    "C29_third_order_vector_two_layers_partial",
    "C29_third_order_refuted",
    "C29_third_order_vector_refuted"
   ],
   "note": "Proved for the second-order scheme (scalar and vector). Refuted for the third-order scheme: with one ghost layer it is out of bounds on every grid; proved in bounds with two layers."
  },
  {
   "property": "C30",
   "status": "partial",
   "theorems": [
    "C30_second_order_vector_partial",
    "C30_third_order_vector_partial",
    "C30_second_order_vector_refuted",
    "C30_third_order_vector_refuted"
   ],
   "note": "Refuted off the diagonal, on every grid with two or more dimensions: entry (r,d) is h_r/h_d times the derivative of component r along r. Exact characterisation proved; the diagonal is right."
  },
  {
   "property": "C31",
   "status": "partial",
   "theorems": [
    "C31_euler_partial",
    "C31_euler_refuted"
   ],
   "note": "Refuted (the source has a FIXME): the gradient of phi is ignored; constant data do not stay constant. The frame part and the exact update are proved."
  },
  {
   "property": "C32",
   "status": "proved",
   "theorems": [
    "C32_rest"
   ],
   "note": "Exact reals, default padding, arbitrary data."
  },
  {
   "property": "C33",
   "status": "proved",
   "theorems": [
    "C33_translation"
   ],
   "note": "Exact reals, any padding >= 1."
  },
  {
   "property": "C34",
   "status": "proved",
   "theorems": [
    "C34_psi_is_gradient"
   ],
   "note": "Exact reals, default padding, arbitrary data; multivariate chain rule proved from the continuity of the interpolated gradient."
  },
  {
   "property": "C35",
   "status": "proved",
   "theorems": [
    "C35_semi_lagrangian_frame",
    "C35_euler_frame"
   ],
   "note": "Any number type; semi-Lagrangian frame for every completed step."
  },
  {
   "property": "C36",
   "status": "proved",
   "theorems": [
    "C36_circle"
   ],
   "note": "Exact reals; after any history of name lookups."
  },
  {
   "property": "C37",
   "status": "partial",
   "theorems": [
    "C37_circular_partial",
    "C37_circular_refuted"
   ],
   "note": "Refuted: whenever c0 <> c1 the velocity does not vanish at the centre and differs everywhere from the rotation about it. Holds for c0 = c1."
  },
  {
   "property": "C38",
   "status": "partial",
   "theorems": [
    "C38_gradient_refuted"
   ],
   "note": "Refuted on every grid: operator[] picks storage slots 0 and 1, which are ghost cells, so interior gradients stay zero."
  },
  {
   "property": "C39",
   "status": "proved",
   "theorems": [
    "C39_unknown_levelset",
    "C39_unknown_velocity"
   ],
   "note": "Any number type, any previous lookups in the static maps."
  },
  {
   "property": "C40",
   "status": "partial",
   "theorems": [
    "C40_tests_build_partial",
    "C40_release_refuted"
   ],
   "note": "Refuted for builds without BUILD_TESTS: the unbraced if guards only the first statement of the macro, so exit(0) runs for every dimension. Proved for builds with BUILD_TESTS."
  },
  {
   "property": "C41",
   "status": "proved",
   "theorems": [
    "C41_terminates",
    "C41_any_body"
   ],
   "note": ""
  },
  {
   "property": "C42",
   "status": "partial",
   "theorems": [
    "C42_cfl_partial",
    "C42_cfl_refuted"
   ],
   "note": "Proved: dt <= h/2 on every axis unless dx = dy < dz. Refuted there: Vec3::min returns dz (strict comparisons on both sides), so dt = dz/2 > dx/2; the shipped 10x10x1 input on the box [-1,1]^3 has dx = 0.2 and gets dt = 1."
  },
  {
   "property": "C43",
   "status": "partial",
   "theorems": [
    "C43_start_refuted",
    "C43_start_ignored_refuted"
   ],
   "note": "Refuted: t_start is read and never used; the loop always starts at 0."
  },
  {
   "property": "C44",
   "status": "partial",
   "theorems": [
    "C44_setup_partial",
    "C44_loop_refuted",
    "C44_main_refuted"
   ],
   "note": "Everything before the loop is proved free of undefined behaviour. Refuted for the loop: the third-order gradient reads outside the one-layer padded grid in the first iteration, for every usable 2-D input (BUILD_TESTS build)."
  },
  {
   "property": "C45",
   "status": "partial",
   "theorems": [
    "C45_step_size",
    "C45_binary64_partial",
    "C45_binary64_refuted"
   ],
   "note": "Exact: the loop ends, within 2 t_end/dt + 2 iterations, when t_end is at most 2^53 times the power of two at or above dt (or equal to it up to the tolerance); refuted for every other end time: the accumulated time stagnates."
  },
  {
   "property": "C46",
   "status": "proved",
   "theorems": [
    "C46_sections",
    "C46_order",
    "C46_other_sections",
    "C46_errors",
    "C46_not_a_mapping",
    "C46_plain_section"
   ],
   "note": ""
  },
  {
   "property": "C47",
   "status": "partial",
   "theorems": [
    "C47_long_partial",
    "C47_short_cells_refuted",
    "C47_short_center_refuted"
   ],
   "note": "Fails: a list of fewer than three numbers is an out-of-bounds read (_refuted), a longer one is silently cut (_partial)."
  },
  {
   "property": "C48",
   "status": "proved",
   "theorems": [
    "C48_print",
    "C48_vec3_columns",
    "C48_vecN_columns",
    "C48_mat3_columns"
   ],
   "note": ""
  },
  {
   "property": "C49",
   "status": "proved",
   "theorems": [
    "C49_repeated_slash",
    "C49_name",
    "C49_createDirectory",
    "C49_write",
    "C49_removeFile",
    "C49_removeFile_directory",
    "C49_tree"
   ],
   "note": "removeDirectory and its library are not modelled; the file system is a tree of files and directories without permissions or links."
  },
  {
   "property": "C50",
   "status": "proved",
   "theorems": [
    "C50_same_as_library",
    "C50_exact_on_bicubics",
    "C50_gradient"
   ],
   "note": "Library agreement on the enclosing cell, exactness on bicubics and gradient consistency, over the reals."
  },
  {
   "property": "C51",
   "status": "partial",
   "theorems": [
    "C51_end_values_and_slopes_partial",
    "C51_slopes_refuted"
   ],
   "note": "Refuted for every dx other than 1: the end slopes are psix/dx. End values and the actual slopes are proved."
  },
  {
   "property": "C52",
   "status": "partial",
   "theorems": [
    "C52_rounding_refuted",
    "C52_cell_search_partial",
    "C52_beyond_the_corner_refuted"
   ],
   "note": "Proved (real arithmetic) for all positions strictly inside on at least one axis. Positions outside on both axes store no cell: the (0,0) of the allocation stays (refuted theorem); update_levelset_data reads but does not use that cell. In binary64 a position strictly inside the box can lie past the last node and get a cell that does not exist (refuted theorem)."
  },
  {
   "property": "C53",
   "status": "partial",
   "theorems": [
    "C53_same_cell_partial",
    "C53_search_kernel_partial",
    "C53_past_last_node_refuted",
    "C53_first_node_refuted",
    "C53_rounding_refuted"
   ],
   "note": "The two searches agree for every position strictly between the limits (single search and whole kernel, all interleavings). Refuted beyond: past the last node the element after the array is read, at or before the first node the results differ (0 against 2^32-1), and in binary64 with 50 nodes on [-1,1] the former happens for a position strictly inside the box."
  },
  {
   "property": "C54",
   "status": "proved",
   "theorems": [
    "C54_divergence_free",
    "C54_tangential_at_boundary",
    "C54_reverses"
   ],
   "note": ""
  },
  {
   "property": "C55",
   "status": "proved",
   "theorems": [
    "C55_circle",
    "C55_derivatives"
   ],
   "note": ""
  },
  {
   "property": "C56",
   "status": "proved",
   "theorems": [
    "C56_constant_velocity",
    "C56_cubic_in_time",
    "C56_linear_in_space",
    "C56_third_order"
   ],
   "note": "Constant velocity (both schemes), RK3 exact for velocities up to cubic in time, Taylor polynomial of degree 3 with remainder bound for velocities linear in space."
  },
  {
   "property": "C57",
   "status": "partial",
   "theorems": [
    "C57_cuda_all_but_one_corner_partial",
    "C57_cuda_corner_refuted",
    "C57_mixed_derivatives"
   ],
   "note": "Serial update and CUDA kernel; the CUDA version reads a wrong node for the corner (ny-1,0), with the exact error in the partial theorem."
  },
  {
   "property": "C58",
   "status": "proved",
   "theorems": [
    "C58_kernels",
    "C58_mpi_pack_positions",
    "C58_mpi_pack_cells",
    "C58_mpi_unpack_positions",
    "C58_mpi_unpack_cells",
    "C58_back_tracing",
    "C58_cell_search",
    "C58_data_update"
   ],
   "note": "All per-node loops of the OpenMP, CUDA and MPI+OpenMP programs under every schedule, except the mixed derivatives loop of the OpenMP program, which races (C59)."
  },
  {
   "property": "C59",
   "status": "partial",
   "theorems": [
    "C59_static_schedule_races_refuted",
    "C59_any_schedule_races_refuted",
    "C59_wrong_result_refuted"
   ],
   "note": "Refuted: dxy1, dxy2, d1..d4 are shared; data race proved for every static schedule with two busy threads, and an interleaving with a wrong result."
  },
  {
   "property": "C60",
   "status": "partial",
   "theorems": [
    "C60_every_node_once_partial",
    "C60_never_outside",
    "C60_nodes_left_out_refuted",
    "C60_nothing_runs_refuted",
    "C60_uneven_tiles_undefined_refuted"
   ],
   "note": "Every node exactly once when the tile size divides nx and ny and has at most 32x32 threads; never outside and never twice for all tile sizes. Refuted otherwise: nodes are left out (or nothing runs), and the program is undefined in the first time step."
  },
  {
   "property": "C61",
   "status": "partial",
   "theorems": [
    "C61_first_half_partial",
    "C61_lost_refuted",
    "C61_program_refuted"
   ],
   "note": "Refuted: nnx*ny doubles are sent as MPI_FLOAT, so half of each buffer arrives (C61_first_half_partial says exactly which elements); every execution of the shipped program reads uninitialised memory (even nx) or writes past a buffer (odd nx) in the first time step (C61_program_refuted)."
  },
  {
   "property": "C62",
   "status": "partial",
   "theorems": [
    "C62_same_positions_partial",
    "C62_last_column_refuted"
   ],
   "note": "Agree off the last row and column; refuted there."
  },
  {
   "property": "C63",
   "status": "proved",
   "theorems": [
    "C63_steps_and_blocks",
    "C63_printstep_zero"
   ],
   "note": "Exact real arithmetic. printstep 0 is a division by zero (C63_printstep_zero)."
  },
  {
   "property": "C64",
   "status": "partial",
   "theorems": [
    "C64_padding_shift_1d_partial",
    "C64_refuted",
    "C64_padding_shift_partial"
   ],
   "note": "Refuted for padding 2; exact value for every padding and dimension (the cell shifted by padding - 1, evaluated at local coordinate 1 - padding)."
  },
  {
   "property": "C65",
   "status": "partial",
   "theorems": [
    "C65_limited_quadratic_partial",
    "C65_refuted"
   ],
   "note": "Refuted: every quadratic is replaced by its chord; exact error formula proved."
  },
  {
   "property": "C66",
   "status": "proved",
   "theorems": [
    "C66_second_order_error"
   ],
   "note": "Exact reals; Taylor bound proved from derivability only."
  },
  {
   "property": "C67",
   "status": "proved",
   "theorems": [
    "C67_third_order_error"
   ],
   "note": "Exact reals; Taylor bound proved from derivability only."
  },
  {
   "property": "C68",
   "status": "proved",
   "theorems": [
    "C68_third_order_needs_two_layers",
    "C68_third_order_vector_needs_two_layers"
   ],
   "note": "Any number type."
  },
  {
   "property": "C69",
   "status": "proved",
   "theorems": [
    "C69_second_order_entries",
    "C69_third_order_entries"
   ],
   "note": "Exact reals, arbitrary sampled vector functions."
  },
  {
   "property": "C70",
   "status": "proved",
   "theorems": [
    "C70_euler_update"
   ],
   "note": "Any number type."
  },
  {
   "property": "C71",
   "status": "proved",
   "theorems": [
    "C71_characteristics"
   ],
   "note": "Exact reals."
  },
  {
   "property": "C72",
   "status": "proved",
   "theorems": [
    "C72_swapped_centre"
   ],
   "note": ""
  },
  {
   "property": "C73",
   "status": "proved",
   "theorems": [
    "C73_gradient_goes_to_ghosts"
   ],
   "note": ""
  },
  {
   "property": "C74",
   "status": "proved",
   "theorems": [
    "C74_nonpositive_dt"
   ],
   "note": ""
  },
  {
   "property": "C75",
   "status": "proved",
   "theorems": [
    "C75_release_exit",
    "C75_release_other",
    "C75_release_application"
   ],
   "note": ""
  },
  {
   "property": "C76",
   "status": "proved",
   "theorems": [
    "C76_root_ignored",
    "C76_root_stored"
   ],
   "note": ""
  },
  {
   "property": "C77",
   "status": "proved",
   "theorems": [
    "C77_write_lost",
    "C77_createDirectory_file"
   ],
   "note": ""
  },
  {
   "property": "C78",
   "status": "proved",
   "theorems": [
    "C78_super_consistent",
    "C78_super_consistent_interpolant"
   ],
   "note": ""
  },
  {
   "property": "C79",
   "status": "partial",
   "theorems": [
    "C79_heun_difference_partial",
    "C79_heun_refuted"
   ],
   "note": "Refuted: the y component uses the already corrected psix instead of the predicted one; the exact deviation is proved. The x component is Heun's method."
  },
  {
   "property": "C80",
   "status": "proved",
   "theorems": [
    "C80_step_inside"
   ],
   "note": ""
  },
  {
   "property": "C81",
   "status": "partial",
   "theorems": [
    "C81_two_nodes_refuted"
   ],
   "note": "Refuted: x[2] and y[2] are read, so two nodes on an axis are out of bounds in the first step."
  },
  {
   "property": "C82",
   "status": "proved",
   "theorems": [
    "C82_planes_move_exactly"
   ],
   "note": ""
  },
  {
   "property": "C83",
   "status": "proved",
   "theorems": [
    "C83_rest"
   ],
   "note": ""
  },
  {
   "property": "C84",
   "status": "proved",
   "theorems": [
    "C84_walls"
   ],
   "note": ""
  },
  {
   "property": "C85",
   "status": "proved",
   "theorems": [
    "C85_serial_and_openmp"
   ],
   "note": ""
  },
  {
   "property": "C86",
   "status": "partial",
   "theorems": [
    "C86_last_row_and_column_refuted"
   ],
   "note": "Refuted for every box around the origin: the position array keeps its zeros there."
  },
  {
   "property": "C87",
   "status": "partial",
   "theorems": [
    "C87_step_partial",
    "C87_program_partial",
    "C87_some_execution"
   ],
   "note": "Under the hypotheses that the tile size divides the grid and no node is traced past a corner of the box; psixy differs from the OpenMP program at one corner (C57) and the printed psiy, psixy are partly old (C89)."
  },
  {
   "property": "C88",
   "status": "partial",
   "theorems": [
    "C88_past_corner_refuted",
    "C88_vortex_refuted",
    "C88_constant_velocity_refuted"
   ],
   "note": "Refuted: a node traced past a corner has no cell index; this happens for the shipped set-up and for every constant velocity. The positive direction is C87."
  },
  {
   "property": "C89",
   "status": "partial",
   "theorems": [
    "C89_stale_psi_printed_refuted"
   ],
   "note": "Refuted by a complete execution on 4x4 nodes; C87_program_partial says in general which printed values are current."
  },
  {
   "property": "C90",
   "status": "partial",
   "theorems": [
    "C90_whole_messages_partial",
    "C90_odd_columns_refuted"
   ],
   "note": "Proved for the program with MPI_DOUBLE and even nx, for every interleaving and buffer capacity; the shipped MPI_FLOAT program is refuted (C61_program_refuted), odd nx is refuted (C90_odd_columns_refuted)."
  },
  {
   "property": "C91",
   "status": "partial",
   "theorems": [
    "C91_boundary_heun_partial",
    "C91_boundary_heun_refuted"
   ],
   "note": "The exact deviation from Heun's method is given (C91_boundary_heun_partial); it is 0 when the node value equals the interpolated one or the tangential velocity gradient vanishes; in general it is not (C91_boundary_heun_refuted)."
  },
  {
   "property": "C92",
   "status": "proved",
   "theorems": [
    "C92_files_written"
   ],
   "note": ""
  },
  {
   "property": "C93",
   "status": "partial",
   "theorems": [
    "C93_read_back_partial",
    "C93_read_back_refuted"
   ],
   "note": "The script computes the number of blocks as an int32 quotient, which rounds to the nearest integer. When n mod printstep is at least half of printstep it asks for one block too many and stops with an error (C93_read_back_refuted)."
  },
  {
   "property": "C94",
   "status": "partial",
   "theorems": [
    "C94_first_program",
    "C94_many_nodes_refuted"
   ],
   "note": "Proved for grids of fewer than 2^31 nodes; beyond that the program computes nx * ny in int, which is undefined behaviour."
  },
  {
   "property": "C95",
   "status": "partial",
   "theorems": [
    "C95_same_results_partial",
    "C95_walls_refuted"
   ],
   "note": "Holds while every node is traced back at most one cell and not exactly onto a limit of the box. Refuted on the walls of the shipped vortex flow."
  },
  {
   "property": "C96",
   "status": "partial",
   "theorems": [
    "C96_long_steps_refuted",
    "C96_planes_refuted"
   ],
   "note": "Refuted: such a node keeps its old data, unless it is a corner of the grid."
  },
  {
   "property": "C97",
   "status": "proved",
   "theorems": [
    "C97_planes_move_exactly"
   ],
   "note": ""
  },
  {
   "property": "C98",
   "status": "proved",
   "theorems": [
    "C98_error",
    "C98_order"
   ],
   "note": ""
  },
  {
   "property": "C99",
   "status": "proved",
   "theorems": [
    "C99_step_error"
   ],
   "note": ""
  },
  {
   "property": "C100",
   "status": "proved",
   "theorems": [
    "C100_linear_error"
   ],
   "note": ""
  },
  {
   "property": "C101",
   "status": "partial",
   "theorems": [
    "C101_positions",
    "C101_distinct_refuted"
   ],
   "note": "Error bound proved for all boxes; distinctness refuted (C101_distinct_refuted)."
  },
  {
   "property": "C102",
   "status": "partial",
   "theorems": [
    "C102_own_base",
    "C102_exact_refuted"
   ],
   "note": "Own cell or the one below proved; own cell exactly refuted (C102_exact_refuted)."
  },
  {
   "property": "C103",
   "status": "proved",
   "theorems": [
    "C103_interp_defined"
   ],
   "note": ""
  },
  {
   "property": "C104",
   "status": "partial",
   "theorems": [
    "C104_step_defined",
    "C104_full_cell_refuted"
   ],
   "note": "Proved for 3/4 of a cell; refuted for a whole cell (C104_full_cell_refuted)."
  },
  {
   "property": "C105",
   "status": "partial",
   "theorems": [
    "C105_one_thread",
    "C105_threads_partial",
    "C105_several_threads_refuted"
   ],
   "note": "One thread proved; any number of threads proved for all loops but the mixed derivatives (C105_threads_partial); the race of that loop makes the rest false (C105_several_threads_refuted)."
  },
  {
   "property": "C106",
   "status": "partial",
   "theorems": [
    "C106_threads_partial",
    "C106_shipped_refuted",
    "C106_several_threads_refuted"
   ],
   "note": "Proved with whole messages, even nx and one thread for the mixed derivatives (C106_threads_partial); as shipped refuted (C106_shipped_refuted, C106_several_threads_refuted)."
  },
  {
   "property": "C107",
   "status": "partial",
   "theorems": [
    "C107_openmp_argument",
    "C107_hybrid_argument",
    "C107_typed_argument",
    "C107_text_argument_refuted",
    "C107_no_argument_refuted",
    "C107_bad_argument_refuted",
    "C107_negative_argument_refuted",
    "C107_hybrid_usage"
   ],
   "note": "Decimal arguments proved, also with leading blanks, a plus sign and trailing text (C107_typed_argument); missing, malformed or textual arguments refuted (C107_no_argument_refuted, C107_bad_argument_refuted, C107_text_argument_refuted)."
  },
  {
   "property": "C108",
   "status": "partial",
   "theorems": [
    "C108_vertices",
    "C108_surface_partial",
    "C108_surface_refuted",
    "C108_layers_refuted",
    "C108_arrows",
    "C108_line_refuted"
   ],
   "note": "Vertices and arrows proved for all two-dimensional grids. The surface joins exactly the neighbours iff nx = ny (sizes >= 2)."
  },
  {
   "property": "C109",
   "status": "partial",
   "theorems": [
    "C109_processes_partial",
    "C109_further_refuted",
    "C109_alone_refuted",
    "C109_shipped_refuted"
   ],
   "note": "Holds for two processes, and for more when MPI stores 5 n messages per further process; refuted for one process, for three or more with less room, and for the program as shipped."
  },
  {
   "property": "C110",
   "status": "proved",
   "theorems": [
    "C110_value",
    "C110_gradient",
    "C110_any_padding"
   ],
   "note": "C110_value (padding 1), C110_any_padding (shift by pad-1), C110_gradient (the second surface is the partial derivative of the first)."
  },
  {
   "property": "C111",
   "status": "partial",
   "theorems": [
    "C111_two_processes_partial",
    "C111_right_possible",
    "C111_doubled_refuted",
    "C111_doubled_unreadable",
    "C111_lost_refuted",
    "C111_some_block"
   ],
   "note": "Refuted, for both MPI programs. Two processes: exact contents in every run (C111_two_processes_partial); a right run and a run with every first text doubled always exist; the doubled details.txt cannot be read by Readfiles.m. Three or more processes: a run that loses all later blocks always exists; every run leaves at least one first block."
  },
  {
   "property": "C112",
   "status": "partial",
   "theorems": [
    "C112_processes_partial",
    "C112_further_refuted",
    "C112_alone_refuted",
    "C112_shipped_refuted",
    "C112_several_threads_refuted",
    "C112_two"
   ],
   "note": "Holds for whole messages, an even number of columns and one thread for the mixed derivatives (any number elsewhere), with two processes or room for 5 n messages per further one; refuted for one process, three or more with less room, MPI_FLOAT or odd columns, several threads for the mixed derivatives."
  },
  {
   "property": "C113",
   "status": "proved",
   "theorems": [
    "C113_limited_value"
   ],
   "note": ""
  },
  {
   "property": "C114",
   "status": "partial",
   "theorems": [
    "C114_continuous_partial",
    "C114_jump",
    "C114_square_refuted",
    "C114_square_jump"
   ],
   "note": "Refuted in 3-D: across every face between cells that are neighbours in y the value jumps for data of x^2, by an amount given exactly. Continuity holds in 1-D, in 2-D, and in 3-D at every other position."
  },
  {
   "property": "C115",
   "status": "proved",
   "theorems": [
    "C115_interp_rounding"
   ],
   "note": ""
  },
  {
   "property": "C116",
   "status": "proved",
   "theorems": [
    "C116_step_rounding"
   ],
   "note": ""
  },
  {
   "property": "C117",
   "status": "partial",
   "theorems": [
    "C117_rest_partial",
    "C117_rest_refuted"
   ],
   "note": "False: with value 1 and slope 2^-60 the slope after the step is 0 (C117_rest_refuted). What holds is a bound on the change (C117_rest_partial)."
  },
  {
   "property": "C118",
   "status": "partial",
   "theorems": [
    "C118_rest",
    "C118_translation_partial",
    "C118_boundary_refuted",
    "C118_mixed_refuted"
   ],
   "note": "Proved: rest, and exact translation for polynomials whose mixed derivatives are constant, in cells at depth N. Refuted near the boundary (ghost cells are not refilled) and for x^2 y (mixed derivatives are not transported)."
  },
  {
   "property": "C119",
   "status": "proved",
   "theorems": [
    "C119_energy_is_integral",
    "C119_stability"
   ],
   "note": "Energy and slopes on every window that the ghost cells cannot have influenced. The functional is shown to be the integral."
  },
  {
   "property": "C120",
   "status": "proved",
   "theorems": [
    "C120_convergence",
    "C120_error"
   ],
   "note": "C120_error gives the bound with its dependence on the number of steps N, C120_convergence the uniform one."
  },
  {
   "property": "C121",
   "status": "partial",
   "theorems": [
    "C121_iteration_partial",
    "C121_rest_refuted"
   ],
   "note": "Proved for two or more ghost layers (with one the iteration is undefined, C44). Refuted at rest: with two layers interpolation is shifted (C64) and a motionless iteration changes phi."
  },
  {
   "property": "C122",
   "status": "proved",
   "theorems": [
    "C122_second_order_rounding",
    "C122_third_order_rounding",
    "C122_second_order_vector_rounding",
    "C122_third_order_vector_rounding"
   ],
   "note": ""
  },
  {
   "property": "C123",
   "status": "proved",
   "theorems": [
    "C123_second_order_total",
    "C123_third_order_total"
   ],
   "note": ""
  },
  {
   "property": "C124",
   "status": "proved",
   "theorems": [
    "C124_circle_rounding",
    "C124_circle_total"
   ],
   "note": ""
  },
  {
   "property": "C125",
   "status": "proved",
   "theorems": [
    "C125_pi",
    "C125_circular_rounding",
    "C125_circular_total"
   ],
   "note": ""
  },
  {
   "property": "C126",
   "status": "proved",
   "theorems": [
    "C126_loop_rounding"
   ],
   "note": ""
  },
  {
   "property": "C127",
   "status": "proved",
   "theorems": [
    "C127_loop_total"
   ],
   "note": ""
  },
  {
   "property": "C128",
   "status": "partial",
   "theorems": [
    "C128_precision",
    "C128_infinite",
    "C128_order",
    "C128_decimal",
    "C128_scalar_file",
    "C128_vector_file",
    "C128_coordinates_refuted",
    "C128_coordinates_partial"
   ],
   "note": "Everything but the distinctness of coordinates is proved; that is refuted (C128_coordinates_refuted, C128_case)."
  },
  {
   "property": "C129",
   "status": "proved",
   "theorems": [
    "C129_interp_sensitivity",
    "C129_step_sensitivity"
   ],
   "note": "Exact arithmetic; bounds for the unlimited interpolation. Constants are those of the one-dimensional weights."
  },
  {
   "property": "C130",
   "status": "proved",
   "theorems": [
    "C130_interp_total",
    "C130_step_total"
   ],
   "note": "Round-to-nearest double arithmetic with moderate magnitudes (fine_box, sized, slow_flow); the rounding bounds are those of C115 and C116."
  },
  {
   "property": "C131",
   "status": "proved",
   "theorems": [
    "C131_rk3_trace_order",
    "C131_euler_trace_order"
   ],
   "note": "C131_rk3_trace_order and C131_euler_trace_order, in real arithmetic; bounds explicit (trace_bound, M2/2 dt^2)."
  },
  {
   "property": "C132",
   "status": "proved",
   "theorems": [
    "C132_smooth_velocity",
    "C132_graded_velocity",
    "C132_vortex"
   ],
   "note": "In addition velocities of size V whose derivatives of order n are at most V K^n: the error is K^3 dt^4 (...) with RK3 and K dt^2 V (1 + 2 V) / 2 with any other scheme name; the vortex with V = 1 and K the larger of 2 pi and pi / T_period. The given gradients of the velocity are not used."
  },
  {
   "property": "C133",
   "status": "proved",
   "theorems": [
    "C133_rk3_step_error",
    "C133_euler_step_error"
   ],
   "note": "C133_rk3_step_error (any velocity with bounded partial derivatives up to order three) and C133_euler_step_error; real arithmetic, one step."
  },
  {
   "property": "C134",
   "status": "proved",
   "theorems": [
    "C134_trajectories",
    "C134_step_solution",
    "C134_vortex_step"
   ],
   "note": "The distance from the edges (deep) and, for the vortex, the two inequalities between the trace error and the spacing are hypotheses: outside them the trace may leave the box. For the program's own settings (128 by 128 nodes, dt = 1/256) they hold."
  },
  {
   "property": "C135",
   "status": "partial",
   "theorems": [
    "C135_values",
    "C135_new_object",
    "C135_copy_refuted",
    "C135_assign_refuted",
    "C135_alias_refuted"
   ],
   "note": "Holds for all programs without copies; refuted for copy construction and assignment."
  },
  {
   "property": "C136",
   "status": "partial",
   "theorems": [
    "C136_stored",
    "C136_agrees",
    "C136_anew",
    "C136_atomic_refuted"
   ],
   "note": "Exact description of the stored part; atomicity refuted."
  },
  {
   "property": "C137",
   "status": "partial",
   "theorems": [
    "C137_mpi_refuted",
    "C137_mpi_ends_refuted",
    "C137_cuda_refuted",
    "C137_device_refuted"
   ],
   "note": "Exact number of steps; growth refutes the claim for MPI and for the prints of CUDA; device memory is constant."
  },
  {
   "property": "C138",
   "status": "partial",
   "theorems": [
    "C138_shown",
    "C138_error_below",
    "C138_error_refuted"
   ],
   "note": "Shown values proved for readable runs; the reported error as a measure of the deviation is refuted."
  },
  {
   "property": "C139",
   "status": "proved",
   "theorems": [
    "C139_gradient"
   ],
   "note": "For the SuperConsistent scheme only; Heuns has a defect (see C79)."
  },
  {
   "property": "C140",
   "status": "proved",
   "theorems": [
    "C140_gradient_solution",
    "C140_vortex_gradient"
   ],
   "note": "The order in dt is two for both traces: for RK3 this is not sharp, C141 gives order four. For the program's own settings the hypotheses hold (C134_vortex_case and C140_vortex_case); the example bound with exact data is below 1, the gradient reaching about 3."
  },
  {
   "property": "C141",
   "status": "proved",
   "theorems": [
    "C141_gradient_order",
    "C141_vortex_order"
   ],
   "note": "Sharpens C140 for RK3: the term of order two in dt becomes 20 V K (K (1 + 2 V))^3 dt^4 times the first derivatives of u. At the settings of GALS_Advection.cpp the example bound with exact data falls from below 1 to below 1/50. The constants are not claimed to be optimal."
  },
  {
   "property": "C142",
   "status": "proved",
   "theorems": [
    "C142_one_solution",
    "C142_vortex_solution",
    "C142_vortex_step"
   ],
   "note": "Makes C134 and C139 to C141 non-vacuous for every differentiable start. Differentiability of the flow map with respect to the start is proved from the variation equations of C141 over short times and composed over long ones. Solutions are on the whole plane, as in C134."
  },
  {
   "property": "C143",
   "status": "proved",
   "theorems": [
    "C143_reversal",
    "C143_vortex_returns",
    "C143_reported_error"
   ],
   "note": "Together with C138. Only this direction holds: C138_error_refuted shows that the reported error can be 0 for a wrong result because the script compares absolute values."
  },
  {
   "property": "C144",
   "status": "proved",
   "theorems": [
    "C144_first_step"
   ],
   "note": "Bounds hold for every grid and step size; C144_case evaluates them for the settings of the program."
  },
  {
   "property": "C145",
   "status": "partial",
   "theorems": [
    "C145_walls_partial",
    "C145_wall_gradient_refuted",
    "C145_exact_walls"
   ],
   "note": "The claim is false of the derivative across the wall (C145_wall_gradient_refuted); C145_walls_partial proves the rest and gives the exact deviation; C145_exact_walls is the exact evolution on the walls."
  },
  {
   "property": "C146",
   "status": "proved",
   "theorems": [
    "C146_step_solves"
   ],
   "note": "C146_step_solves for the stored velocity at the end of the step; existence of the solution is C142. Case: sin x sin y in the swirling flow."
  },
  {
   "property": "C147",
   "status": "partial",
   "theorems": [
    "C147_exact_rotation",
    "C147_turn_partial",
    "C147_gradient_refuted"
   ],
   "note": "C147_turn_partial: the values as claimed, the gradient only that of the foot. C147_gradient_refuted: it is never turned (the velocity gradient of the field stays zero, C38), the error for a plane is exactly 2 sin(omega dt/2)|grad|. C147_exact_rotation: the rotated level set solves the equation."
  },
  {
   "property": "C148",
   "status": "proved",
   "theorems": [
    "C148_step_solves64"
   ],
   "note": "C148_step_solves64: values and gradients, with explicit constants. Case: sin x sin y and the swirling flow stored as multiples of 2^-40 on 4 by 3 cells."
  },
  {
   "property": "C149",
   "status": "proved",
   "theorems": [
    "C149_hermite_rounding",
    "C149_bicubics"
   ],
   "note": "C149_hermite_rounding compares with the same formula in real numbers, C149_bicubics with the bicubic polynomial that has the stored corner data. Positions up to two cells from the corner include every position of the cell itself. Cell sizes and M lie between 2^-200 and 2^200. The error of the back-trace is not part of this statement."
  },
  {
   "property": "C150",
   "status": "proved",
   "theorems": [
    "C150_trace_rounding",
    "C150_origin"
   ],
   "note": "C150_trace_rounding compares with the same formula in real numbers, C150_origin with the exact trajectory that ends in the node. The accuracy of the double velocity functions is a hypothesis, because the sine and cosine of the C library are not specified. The bounded quantities lie between 2^-200 and 2^200."
  },
  {
   "property": "C151",
   "status": "proved",
   "theorems": [
    "C151_step_in_double",
    "C151_run_completes",
    "C151_exact_grids"
   ],
   "note": "The step accuracy is stated for phi at nodes traced to the inside of the box. On grids whose coordinates are rounded the cell found may not exist (C52_rounding_refuted)."
  },
  {
   "property": "C152",
   "status": "proved",
   "theorems": [
    "C152_gradient_rounding",
    "C152_step_gradient"
   ],
   "note": "The step theorem is for nodes traced to the inside of the box and for the SuperConsistent scheme; for Heun's scheme see C79."
  },
  {
   "property": "C153",
   "status": "proved",
   "theorems": [
    "C153_mixed_accuracy",
    "C153_step_mixed",
    "C153_vortex_mixed"
   ],
   "note": "Real arithmetic. The comparison with the solution after a whole step is for nodes with inner neighbours; at edges and corners the accuracy of the update itself is proved for given slopes."
  },
  {
   "property": "C154",
   "status": "proved",
   "theorems": [
    "C154_mixed_rounding",
    "C154_mixed_accuracy",
    "C154_step_mixed"
   ],
   "note": "C154_mixed_rounding compares two runs of the same update, one in double and one in real numbers. The step theorem is for the SuperConsistent scheme, nodes with inner neighbours, and grids whose coordinates and steps carry no rounding error."
  }
 ]
}