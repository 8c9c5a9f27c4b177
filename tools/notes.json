{
"C01": "All sizes whose padded count fits an int; under Trap additionally the masked terms must fit (see C09).",
"C02": "Histories are lists of writes; any read is the final observation of a prefix.",
"C03": "Refuted as stated: generate subtracts one cell (mask), not the padding. Exact formula for every padding; cell centres for padding 1.",
"C04": "Exact reals. Also proved: positions whose lattice coordinate is no int are undefined behaviour.",
"C05": "Arrays of any element type, all fields of Levelset and LevelsetVelocity.",
"C06": "Values are copied; later writes to either array do not affect the other.",
"C07": "Refuted when an axis beyond DIM has more than one cell; proved when unused axes have one cell.",
"C08": "Refuted; proved instead: the coordinates beyond DIM never influence the slot.",
"C09": "Refuted in 1-D (n=800 million, padding 1). Exact overflow condition proved; no overflow in 3-D.",
"C10": "Refuted in 1-D and 2-D for every grid and position under the C++ standard (INT_MAX + padding). Defined in 3-D, and under wrap-around.",
"C11": "Refuted: every other padding changes the slot of cell (0,0,0); larger paddings read out of bounds.",
"C12": "Refuted on ties of the first two components; exact characterisation proved.",
"C13": "Exact reals.",
"C14": "Exact reals.",
"C15": "Refuted: release builds exit for every vector; test builds read out of range for short ones. Exact behaviour proved.",
"C16": "Exact reals, any padding >= 1, samples at the positions the grid reports.",
"C17": "As C16 in 2-D; dpoly/tricubic flags proved to be partial derivatives.",
"C18": "As C16 in 3-D.",
"C19": "Arbitrary data, padding 1; also with limiting for phi.",
"C20": "Includes cell faces.",
"C21": "Epsilon-delta over all positions of the lattice.",
"C22": "Exact result of limiting for all data, and the limited 1-D interpolant.",
"C23": "Defined inside for every dimension and padding >= 1; outside the lattice the 1-D read is out of bounds.",
"C24": "Any scalar type; grid of positions may differ from the level-set grid. Same for linear interpolation.",
"C25": "",
"C26": "Enclosing cell proved unique.",
"C64": "Refuted for padding 2; exact value for every padding and dimension (the cell shifted by padding - 1, evaluated at local coordinate 1 - padding).",
"C65": "Refuted: every quadratic is replaced by its chord; exact error formula proved.",
"C27": "Exact reals; also the exact error h^2 * (coefficient of the third power) on all cubics.",
"C28": "Exact reals; two ghost layers.",
"C29": "Proved for the second-order scheme (scalar and vector). Refuted for the third-order scheme: with one ghost layer it is out of bounds on every grid; proved in bounds with two layers.",
"C30": "Refuted off the diagonal, on every grid with two or more dimensions: entry (r,d) is h_r/h_d times the derivative of component r along r. Exact characterisation proved; the diagonal is right.",
"C66": "Exact reals; Taylor bound proved from derivability only.",
"C67": "Exact reals; Taylor bound proved from derivability only.",
"C68": "Any number type.",
"C69": "Exact reals, arbitrary sampled vector functions.",
"C31": "Refuted (the source has a FIXME): the gradient of phi is ignored; constant data do not stay constant. The frame part and the exact update are proved.",
"C32": "Exact reals, default padding, arbitrary data.",
"C33": "Exact reals, any padding >= 1.",
"C34": "Exact reals, default padding, arbitrary data; multivariate chain rule proved from the continuity of the interpolated gradient.",
"C35": "Any number type; semi-Lagrangian frame for every completed step.",
"C70": "Any number type.",
"C71": "Exact reals.",
"C36": "Exact reals; after any history of name lookups.",
"C37": "Refuted: whenever c0 <> c1 the velocity does not vanish at the centre and differs everywhere from the rotation about it. Holds for c0 = c1.",
"C38": "Refuted on every grid: operator[] picks storage slots 0 and 1, which are ghost cells, so interior gradients stay zero.",
"C39": "Any number type, any previous lookups in the static maps.",
"C40": "Refuted for builds without BUILD_TESTS: the unbraced if guards only the first statement of the macro, so exit(0) runs for every dimension. Proved for builds with BUILD_TESTS.",
"C42": "Proved: dt <= h/2 on every axis unless dx = dy < dz. Refuted there: Vec3::min returns dz (strict comparisons on both sides), so dt = dz/2 > dx/2; the shipped 10x10x1 input on the box [-1,1]^3 has dx = 0.2 and gets dt = 1.",
"C43": "Refuted: t_start is read and never used; the loop always starts at 0.",
"C44": "Everything before the loop is proved free of undefined behaviour. Refuted for the loop: the third-order gradient reads outside the one-layer padded grid in the first iteration, for every usable 2-D input (BUILD_TESTS build).",
"C45": "Exact: the loop ends, within 2 t_end/dt + 2 iterations, when t_end is at most 2^53 times the power of two at or above dt (or equal to it up to the tolerance); refuted for every other end time: the accumulated time stagnates.",
"C47": "Fails: a list of fewer than three numbers is an out-of-bounds read (_refuted), a longer one is silently cut (_partial).",
"C49": "removeDirectory and its library are not modelled; the file system is a tree of files and directories without permissions or links.",
"C50": "Library agreement on the enclosing cell, exactness on bicubics and gradient consistency, over the reals.",
"C51": "Refuted for every dx other than 1: the end slopes are psix/dx. End values and the actual slopes are proved.",
"C56": "Constant velocity (both schemes), RK3 exact for velocities up to cubic in time, Taylor polynomial of degree 3 with remainder bound for velocities linear in space.",
"C79": "Refuted: the y component uses the already corrected psix instead of the predicted one; the exact deviation is proved. The x component is Heun's method.",
"C52": "Proved (real arithmetic) for all positions strictly inside on at least one axis. Positions outside on both axes store no cell: the (0,0) of the allocation stays (refuted theorem); update_levelset_data reads but does not use that cell. In binary64 a position strictly inside the box can lie past the last node and get a cell that does not exist (refuted theorem).",
"C57": "Serial update and CUDA kernel; the CUDA version reads a wrong node for the corner (ny-1,0), with the exact error in the partial theorem.",
"C58": "All per-node loops of the OpenMP, CUDA and MPI+OpenMP programs under every schedule, except the mixed derivatives loop of the OpenMP program, which races (C59).",
"C59": "Refuted: dxy1, dxy2, d1..d4 are shared; data race proved for every static schedule with two busy threads, and an interleaving with a wrong result.",
"C62": "Agree off the last row and column; refuted there.",
"C63": "Exact real arithmetic. printstep 0 is a division by zero (C63_printstep_zero).",
"C81": "Refuted: x[2] and y[2] are read, so two nodes on an axis are out of bounds in the first step.",
"C86": "Refuted for every box around the origin: the position array keeps its zeros there.",
"C53": "The two searches agree for every position strictly between the limits (single search and whole kernel, all interleavings). Refuted beyond: past the last node the element after the array is read, at or before the first node the results differ (0 against 2^32-1), and in binary64 with 50 nodes on [-1,1] the former happens for a position strictly inside the box.",
"C60": "Every node exactly once when the tile size divides nx and ny and has at most 32x32 threads; never outside and never twice for all tile sizes. Refuted otherwise: nodes are left out (or nothing runs), and the program is undefined in the first time step.",
"C87": "Under the hypotheses that the tile size divides the grid and no node is traced past a corner of the box; psixy differs from the OpenMP program at one corner (C57) and the printed psiy, psixy are partly old (C89).",
"C88": "Refuted: a node traced past a corner has no cell index; this happens for the shipped set-up and for every constant velocity. The positive direction is C87.",
"C89": "Refuted by a complete execution on 4x4 nodes; C87_program_partial says in general which printed values are current.",
"C61": "Refuted: nnx*ny doubles are sent as MPI_FLOAT, so half of each buffer arrives (C61_first_half_partial says exactly which elements); every execution of the shipped program reads uninitialised memory (even nx) or writes past a buffer (odd nx) in the first time step (C61_program_refuted).",
"C90": "Proved for the program with MPI_DOUBLE and even nx, for every interleaving and buffer capacity; the shipped MPI_FLOAT program is refuted (C61_program_refuted), odd nx is refuted (C90_odd_columns_refuted).",
"C91": "The exact deviation from Heun's method is given (C91_boundary_heun_partial); it is 0 when the node value equals the interpolated one or the tangential velocity gradient vanishes; in general it is not (C91_boundary_heun_refuted).",
"C93": "The script computes the number of blocks as an int32 quotient, which rounds to the nearest integer. When n mod printstep is at least half of printstep it asks for one block too many and stops with an error (C93_read_back_refuted).",
"C94": "Proved for grids of fewer than 2^31 nodes; beyond that the program computes nx * ny in int, which is undefined behaviour.",
"C95": "Holds while every node is traced back at most one cell and not exactly onto a limit of the box. Refuted on the walls of the shipped vortex flow.",
"C96": "Refuted: such a node keeps its old data, unless it is a corner of the grid.",
"C101": "Error bound proved for all boxes; distinctness refuted (C101_distinct_refuted).",
"C102": "Own cell or the one below proved; own cell exactly refuted (C102_exact_refuted).",
"C104": "Proved for 3/4 of a cell; refuted for a whole cell (C104_full_cell_refuted).",
"C105": "One thread proved; any number of threads proved for all loops but the mixed derivatives (C105_threads_partial); the race of that loop makes the rest false (C105_several_threads_refuted).",
"C106": "Proved with whole messages, even nx and one thread for the mixed derivatives (C106_threads_partial); as shipped refuted (C106_shipped_refuted, C106_several_threads_refuted).",
"C107": "Decimal arguments proved, also with leading blanks, a plus sign and trailing text (C107_typed_argument); missing, malformed or textual arguments refuted (C107_no_argument_refuted, C107_bad_argument_refuted, C107_text_argument_refuted).",
"C108": "Vertices and arrows proved for all two-dimensional grids. The surface joins exactly the neighbours iff nx = ny (sizes >= 2).",
"C109": "Holds for two processes, and for more when MPI stores 5 n messages per further process; refuted for one process, for three or more with less room, and for the program as shipped.",
"C110": "C110_value (padding 1), C110_any_padding (shift by pad-1), C110_gradient (the second surface is the partial derivative of the first).",
"C111": "Refuted, for both MPI programs. Two processes: exact contents in every run (C111_two_processes_partial); a right run and a run with every first text doubled always exist; the doubled details.txt cannot be read by Readfiles.m. Three or more processes: a run that loses all later blocks always exists; every run leaves at least one first block.",
"C112": "Holds for whole messages, an even number of columns and one thread for the mixed derivatives (any number elsewhere), with two processes or room for 5 n messages per further one; refuted for one process, three or more with less room, MPI_FLOAT or odd columns, several threads for the mixed derivatives.",
"C114": "Refuted in 3-D: across every face between cells that are neighbours in y the value jumps for data of x^2, by an amount given exactly. Continuity holds in 1-D, in 2-D, and in 3-D at every other position.",
"C117": "False: with value 1 and slope 2^-60 the slope after the step is 0 (C117_rest_refuted). What holds is a bound on the change (C117_rest_partial).",
"C118": "Proved: rest, and exact translation for polynomials whose mixed derivatives are constant, in cells at depth N. Refuted near the boundary (ghost cells are not refilled) and for x^2 y (mixed derivatives are not transported).",
"C119": "Energy and slopes on every window that the ghost cells cannot have influenced. The functional is shown to be the integral.",
"C120": "C120_error gives the bound with its dependence on the number of steps N, C120_convergence the uniform one.",
"C121": "Proved for two or more ghost layers (with one the iteration is undefined, C44). Refuted at rest: with two layers interpolation is shifted (C64) and a motionless iteration changes phi.",
"C128": "Everything but the distinctness of coordinates is proved; that is refuted (C128_coordinates_refuted, C128_case).",
"C129": "Exact arithmetic; bounds for the unlimited interpolation. Constants are those of the one-dimensional weights.",
"C130": "Round-to-nearest double arithmetic with moderate magnitudes (fine_box, sized, slow_flow); the rounding bounds are those of C115 and C116.",
"C131": "C131_rk3_trace_order and C131_euler_trace_order, in real arithmetic; bounds explicit (trace_bound, M2/2 dt^2).",
"C132": "In addition velocities of size V whose derivatives of order n are at most V K^n: the error is K^3 dt^4 (...) with RK3 and K dt^2 V (1 + 2 V) / 2 with any other scheme name; the vortex with V = 1 and K the larger of 2 pi and pi / T_period. The given gradients of the velocity are not used.",
"C133": "C133_rk3_step_error (any velocity with bounded partial derivatives up to order three) and C133_euler_step_error; real arithmetic, one step.",
"C134": "The distance from the edges (deep) and, for the vortex, the two inequalities between the trace error and the spacing are hypotheses: outside them the trace may leave the box. For the program's own settings (128 by 128 nodes, dt = 1/256) they hold.",
"C135": "Holds for all programs without copies; refuted for copy construction and assignment.",
"C136": "Exact description of the stored part; atomicity refuted.",
"C137": "Exact number of steps; growth refutes the claim for MPI and for the prints of CUDA; device memory is constant.",
"C138": "Shown values proved for readable runs; the reported error as a measure of the deviation is refuted.",
"C139": "For the SuperConsistent scheme only; Heuns has a defect (see C79).",
"C140": "The order in dt is two for both traces: for RK3 this is not sharp, C141 gives order four. For the program's own settings the hypotheses hold (C134_vortex_case and C140_vortex_case); the example bound with exact data is below 1, the gradient reaching about 3.",
"C141": "Sharpens C140 for RK3: the term of order two in dt becomes 20 V K (K (1 + 2 V))^3 dt^4 times the first derivatives of u. At the settings of GALS_Advection.cpp the example bound with exact data falls from below 1 to below 1/50. The constants are not claimed to be optimal.",
"C142": "Makes C134 and C139 to C141 non-vacuous for every differentiable start. Differentiability of the flow map with respect to the start is proved from the variation equations of C141 over short times and composed over long ones. Solutions are on the whole plane, as in C134.",
"C143": "Together with C138. Only this direction holds: C138_error_refuted shows that the reported error can be 0 for a wrong result because the script compares absolute values.",
"C144": "Bounds hold for every grid and step size; C144_case evaluates them for the settings of the program.",
"C145": "The claim is false of the derivative across the wall (C145_wall_gradient_refuted); C145_walls_partial proves the rest and gives the exact deviation; C145_exact_walls is the exact evolution on the walls.",
"C146": "C146_step_solves for the stored velocity at the end of the step; existence of the solution is C142. Case: sin x sin y in the swirling flow.",
"C147": "C147_turn_partial: the values as claimed, the gradient only that of the foot. C147_gradient_refuted: it is never turned (the velocity gradient of the field stays zero, C38), the error for a plane is exactly 2 sin(omega dt/2)|grad|. C147_exact_rotation: the rotated level set solves the equation.",
"C148": "C148_step_solves64: values and gradients, with explicit constants. Case: sin x sin y and the swirling flow stored as multiples of 2^-40 on 4 by 3 cells.",
"C149": "C149_hermite_rounding compares with the same formula in real numbers, C149_bicubics with the bicubic polynomial that has the stored corner data. Positions up to two cells from the corner include every position of the cell itself. Cell sizes and M lie between 2^-200 and 2^200. The error of the back-trace is not part of this statement.",
"C150": "C150_trace_rounding compares with the same formula in real numbers, C150_origin with the exact trajectory that ends in the node. The accuracy of the double velocity functions is a hypothesis, because the sine and cosine of the C library are not specified. The bounded quantities lie between 2^-200 and 2^200.",
"C151": "The step accuracy is stated for phi at nodes traced to the inside of the box. On grids whose coordinates are rounded the cell found may not exist (C52_rounding_refuted).",
"C152": "The step theorem is for nodes traced to the inside of the box and for the SuperConsistent scheme; for Heun's scheme see C79.",
"C153": "Real arithmetic. The comparison with the solution after a whole step is for nodes with inner neighbours; at edges and corners the accuracy of the update itself is proved for given slopes.",
"C154": "C154_mixed_rounding compares two runs of the same update, one in double and one in real numbers. The step theorem is for the SuperConsistent scheme, nodes with inner neighbours, and grids whose coordinates and steps carry no rounding error."
}