{"id": "C01", "title": "Every cell of a generated grid has its own storage slot", "statement": "After Grid(n...) ; setPadding(pad) ; generate(box), index(i,j,k) maps the padded coordinates one-to-one and onto 0..size()-1: in range, no two cells share a slot, no slot is unused.", "quantifier": "all dimensions 1,2,3, all positive cell counts on the used axes (1 on unused ones), all paddings >= 0 whose padded size fits a 32-bit int, all padded coordinates", "why_tests_cant": "tests index a handful of cells of a few small grids; injectivity and coverage range over all sizes and pairs of cells", "anchors": ["src/cpu/grid.cc: Grid::index, Grid::generate, Grid::size", "include/gals/utilities/grid.h"]}
{"id": "C02", "title": "Array cells behave like independent variables", "statement": "After any sequence of writes a(i,j,k)=v on padded cells, reading a cell returns the last value written to that cell, or the value it had before; no write is lost and no other cell changes.", "quantifier": "all grids as in C01, all element types, all finite histories of writes and reads, all padded cells", "why_tests_cant": "a property of every history and every pair of cells; tests try one write pattern on one grid", "anchors": ["src/cpu/array.cc: Array::operator()", "include/gals/utilities/array.h"]}
{"id": "C03", "title": "Generated nodes sit at the cell centres", "statement": "After generate(box), the position of cell (i,j,k), ghost cells included, is min + (index + 1/2)*dx on each used axis and 0 on unused axes, whatever padding was set with setPadding before.", "quantifier": "all dimensions, positive cell counts, boxes, paddings, padded cells", "why_tests_cant": "tests use the default padding on a few grids; the claim ranges over every padding and size", "anchors": ["src/cpu/grid.cc: Grid::generate, Grid::operator(), Grid::setPadding"]}
{"id": "C04", "title": "baseNodeId returns the node whose cell encloses the position", "statement": "For a generated grid and any position x in the half-open box swept by the node lattice, baseNodeId(x) is the unique node with node <= x < node + dx on each used axis, and the local coordinate computed from it lies in [0,1).", "quantifier": "all dimensions, cell counts, boxes with min<max, all real positions whose lattice coordinate fits an int", "why_tests_cant": "holds for a continuum of positions including exact node positions; tests probe a few points", "anchors": ["src/cpu/grid.cc: Grid::baseNodeId", "include/gals/utilities/grid.h"]}
{"id": "C05", "title": "Fresh arrays and level sets are zero everywhere", "statement": "A newly built Array, Levelset or LevelsetVelocity holds the element type's default (0) in every padded cell and has exactly size() slots of the grid.", "quantifier": "all generated grids, all element types, all slots", "why_tests_cant": "tests inspect a few cells of one grid", "anchors": ["src/cpu/array.cc: Array::Array", "src/cpu/levelset.cc: Levelset::Levelset", "src/cpu/levelset-velocity.cc"]}
{"id": "C06", "title": "Array assignment is a deep copy", "statement": "After b = a on arrays over equal grids every cell of b equals the cell of a, and later writes to either leave the other unchanged.", "quantifier": "all grids, arrays, later write histories", "why_tests_cant": "independence from every later history cannot be enumerated", "anchors": ["src/cpu/array.cc: Array::operator="]}
{"id": "C07", "title": "totalCells counts the interior cells", "statement": "After generate, totalCells() equals the number of cells (i,j,k) visited by a loop over numCells().", "quantifier": "all dimensions and cell counts, including counts given for unused axes", "why_tests_cant": "tests use a few counts only", "anchors": ["src/cpu/grid.cc: Grid::totalCells, Grid::generate, Grid::numCells"]}
{"id": "C08", "title": "Cells enumerated by numCells() are distinct even with cells on unused axes", "statement": "A Grid<T,DIM> built with more than one cell on an axis beyond DIM still gives distinct storage to every (i,j,k) below numCells().", "quantifier": "all dimensions and all cell-count triples", "why_tests_cant": "tests never build a 1-D or 2-D grid with cells on unused axes, although the input file's three 'cells' numbers allow it", "anchors": ["src/cpu/grid.cc: Grid::index, Grid::Grid", "applications/advection/main.cc"]}
{"id": "C09", "title": "Indexing never overflows for grids that can be allocated", "statement": "index(i,j,k) and the constructor perform no signed overflow for padded cells of grids whose padded size is a valid int, and the exact size from which they do overflow is known.", "quantifier": "all cell counts and paddings, all padded cells", "why_tests_cant": "overflow needs grids of billions of cells, far beyond what tests allocate", "anchors": ["src/cpu/grid.cc: Grid::index, Grid::Grid, Grid::generate"]}
{"id": "C10", "title": "Interpolation only performs defined integer arithmetic", "statement": "Looking up the base node of a position with grid(baseNodeId(x)) performs no signed integer overflow in any dimension.", "quantifier": "all dimensions, grids and positions", "why_tests_cant": "on usual compilers the overflowed term is multiplied by 0, so no test output changes although the behaviour is undefined", "anchors": ["src/cpu/grid.cc: Grid::baseNodeId, Grid::index", "src/cpu/interpolation/hermite-1d.cc", "src/cpu/interpolation/hermite-2d.cc", "src/cpu/interpolation/linear-1d.cc"]}
{"id": "C11", "title": "Changing the padding without regenerating is detected or harmless", "statement": "After setPadding(q) without a new generate, accesses to cells of the grid and of arrays built on it still reach the cells' own slots.", "quantifier": "all grids, old and new paddings, cells", "why_tests_cant": "needs all combinations of call order and padding", "anchors": ["src/cpu/grid.cc: Grid::setPadding, Grid::index", "src/cpu/array.cc"]}
{"id": "C12", "title": "Vec3::min returns the smallest component", "statement": "v.min() is a component of v and is <= every component.", "quantifier": "all triples of numbers", "why_tests_cant": "ties between components are a measure-zero case that sampled tests miss", "anchors": ["src/cpu/vec3.cc: Vec3::min"]}
{"id": "C13", "title": "Approximate equality", "statement": "is_equal and the Vec3/Mat3 operator== hold exactly when every component differs by at most 1e-10; the relation is reflexive and symmetric, and it is not transitive.", "quantifier": "all numbers, vectors, matrices", "why_tests_cant": "relational laws quantify over pairs and triples of reals", "anchors": ["include/gals/utilities/utilities.h: is_equal", "src/cpu/vec3.cc: operator==", "src/cpu/mat3.cc: operator=="]}
{"id": "C14", "title": "Mat3::dot multiplies by the transpose", "statement": "(M.dot(v))[i] = sum_j M(j,i) v[j]; it is linear in both arguments and the identity matrix is neutral.", "quantifier": "all 3x3 matrices and vectors", "why_tests_cant": "algebraic law over all matrices; the test uses one matrix", "anchors": ["src/cpu/mat3.cc: Mat3::dot, operator-, operator*"]}
{"id": "C15", "title": "Building a Vec3 from a std::vector", "statement": "A 3-element vector gives the Vec3 with these elements; any other length is rejected without undefined behaviour; this in both the test and the release configuration.", "quantifier": "all vectors of all lengths, both values of the BUILD_TESTS switch", "why_tests_cant": "tests are only ever compiled with BUILD_TESTS defined and with 3 elements", "anchors": ["src/cpu/vec3.cc: Vec3(const std::vector&)", "include/gals/utilities/utilities.h: GALS_ABORT", "CMakeLists.txt"]}
{"id": "C16", "title": "1-D Hermite interpolation is exact on cubics", "statement": "If phi/psi hold the samples of a cubic and of its derivative, the interpolated phi and psi at any x inside the lattice are the cubic and its derivative at x.", "quantifier": "all 1-D grids, all cubics, all positions inside the lattice", "why_tests_cant": "exactness over all polynomials and a continuum of positions", "anchors": ["src/cpu/interpolation/hermite-1d.cc: interpolate", "include/gals/cpu/interpolation/hermite.h: get_control_points, B0..B3"]}
{"id": "C17", "title": "2-D Hermite interpolation is exact on bicubics", "statement": "If phi, psi and the mixed derivative hold samples of a bicubic polynomial (degree <=3 in each variable), the interpolated phi and both psi components at any position inside the lattice are exact.", "quantifier": "all 2-D grids, all 16-coefficient bicubics, all positions inside the lattice", "why_tests_cant": "the test uses one field and a tolerance; a wrong coefficient among 16 can stay below it", "anchors": ["src/cpu/interpolation/hermite-2d.cc: interpolate"]}
{"id": "C18", "title": "3-D Hermite interpolation is exact on tricubics", "statement": "If phi, psi and the four mixed derivatives hold samples of a tricubic polynomial, the interpolated phi and all three psi components are exact at every position inside the lattice.", "quantifier": "all 3-D grids, all 64-coefficient tricubics, all positions inside the lattice", "why_tests_cant": "64 hand-expanded control points; a test field exercises few of them", "anchors": ["src/cpu/interpolation/hermite-3d.cc: interpolate"]}
{"id": "C19", "title": "Interpolation at a node returns the stored data", "statement": "On a grid with the default padding (1), at a node position the interpolated phi and psi equal the stored phi and psi of that node, for arbitrary (not sampled) data.", "quantifier": "all dimensions, grids with default padding, nodes, arbitrary stored phi, psi and mixed derivatives", "why_tests_cant": "arbitrary data over all grids", "anchors": ["src/cpu/interpolation/hermite-1d.cc", "src/cpu/interpolation/hermite-2d.cc", "src/cpu/interpolation/hermite-3d.cc"]}
{"id": "C20", "title": "Interpolated psi is the gradient of interpolated phi", "statement": "On a grid with the default padding (1), the interpolated psi component on each used axis is the partial derivative of the interpolated phi with respect to position at every position of the lattice, for arbitrary data; components on unused axes are 0.", "quantifier": "all dimensions, grids, arbitrary data, positions inside a cell", "why_tests_cant": "a statement about derivatives at every point", "anchors": ["src/cpu/interpolation/hermite-1d.cc", "src/cpu/interpolation/hermite-2d.cc", "src/cpu/interpolation/hermite-3d.cc", "include/gals/cpu/interpolation/hermite.h: B0_Prime..B3_Prime"]}
{"id": "C21", "title": "The Hermite interpolant is continuously differentiable across cell faces", "statement": "On a grid with the default padding (1), the interpolated phi and psi are continuous functions of the position over the whole lattice, cell faces included, for arbitrary stored data.", "quantifier": "all dimensions, grids with default padding, arbitrary data, all positions of the lattice", "why_tests_cant": "holds on a continuum of face points for arbitrary data", "anchors": ["src/cpu/interpolation/hermite-1d.cc", "src/cpu/interpolation/hermite-2d.cc", "src/cpu/interpolation/hermite-3d.cc"]}
{"id": "C22", "title": "Gradient limiting", "statement": "With use_gradient_limiting the interpolant keeps both end values, leaves unlimited data untouched, and changes only interior control points.", "quantifier": "all four data values, all cell sizes", "why_tests_cant": "three-way branch on signs of products of differences; all reals including the zero cases", "anchors": ["include/gals/cpu/interpolation/hermite.h: get_control_points"]}
{"id": "C23", "title": "Interpolation reads only existing cells", "statement": "For positions in [min - dx/2, max + dx/2) on each used axis (padding >= 1, nodes at cell centres) every cell the interpolation reads is a padded cell of the grid; outside that range it can read outside storage.", "quantifier": "all dimensions, grids, positions", "why_tests_cant": "memory safety over a continuum of positions and all grids", "anchors": ["src/cpu/interpolation/hermite-1d.cc", "src/cpu/interpolation/hermite-2d.cc", "src/cpu/interpolation/hermite-3d.cc", "src/cpu/interpolation/linear-1d.cc", "src/cpu/grid.cc: baseNodeId"]}
{"id": "C24", "title": "Interpolate::compute updates exactly the interior of the two result fields", "statement": "compute(x_interp, levelset) sets phiInterpPrev and psiInterpPrev at each interior cell to the interpolant of phiPrev/psiPrev at x_interp of that cell; ghost cells of both and all other fields are unchanged.", "quantifier": "all dimensions, grids, position fields inside the lattice, level-set contents", "why_tests_cant": "frame condition over all cells of all arrays", "anchors": ["src/cpu/interpolate.cc", "src/cpu/interpolation/hermite-1d.cc: compute", "src/cpu/interpolation/hermite-2d.cc: compute", "src/cpu/interpolation/hermite-3d.cc: compute"]}
{"id": "C25", "title": "1-D linear interpolation is exact on affine data and never overshoots", "statement": "Linear interpolation reproduces affine samples exactly, and its value always lies between the two neighbouring node values.", "quantifier": "all 1-D grids, data, positions inside the lattice", "why_tests_cant": "all data and positions", "anchors": ["src/cpu/interpolation/linear-1d.cc"]}
{"id": "C26", "title": "The Hermite value stays in the hull of its control points", "statement": "Inside a cell the interpolated phi lies between the smallest and the largest Bernstein control point of that cell.", "quantifier": "all dimensions, control points, local coordinates in [0,1]", "why_tests_cant": "all reals", "anchors": ["include/gals/cpu/interpolation/hermite.h: B0..B3", "src/cpu/interpolation/hermite-2d.cc"]}
{"id": "C27", "title": "Second-order scheme: exact on quadratics", "statement": "Gradient<SecondOrderCentral> of samples of a polynomial of degree <= 2 in each variable (ghost cells filled) equals the analytic gradient in every interior cell; components on unused axes keep their old value and ghost cells of the result are unchanged.", "quantifier": "all dimensions, grids with padding >= 1, polynomials, interior cells", "why_tests_cant": "all grids and polynomials", "anchors": ["src/cpu/gradient/second-order-central.cc", "src/cpu/gradient.cc"]}
{"id": "C28", "title": "Third-order scheme: exact on cubics", "statement": "Gradient<ThirdOrder> of samples of a polynomial of degree <= 3 in each variable equals the analytic gradient in every interior cell, when two layers of ghost cells exist.", "quantifier": "all dimensions, grids with padding >= 2, polynomials, interior cells", "why_tests_cant": "all grids and polynomials", "anchors": ["src/cpu/gradient/third-order.cc", "src/cpu/gradient.cc"]}
{"id": "C29", "title": "Gradient schemes stay inside storage with the default padding", "statement": "Computing a gradient on a grid with the default padding touches only cells of the grid.", "quantifier": "both schemes, all dimensions, cell counts, default padding 1", "why_tests_cant": "an out-of-row read returns a plausible number, so a test with tolerance cannot see it", "anchors": ["src/cpu/gradient/third-order.cc", "src/cpu/gradient/second-order-central.cc", "applications/advection/main.cc"]}
{"id": "C30", "title": "Gradient of a vector field: row is the component, column the derivative", "statement": "For a vector field, gradient(i,j,k)(c,d) is the derivative of component c along axis d, exact on fields of degree <= 2 (second order) or <= 3 (third order).", "quantifier": "both schemes, all dimensions, fields, interior cells", "why_tests_cant": "the tests only use fields whose error is invisible on the diagonal or in 1-D", "anchors": ["src/cpu/gradient/second-order-central.cc", "src/cpu/gradient/third-order.cc", "include/gals/cpu/gradient.h"]}
{"id": "C31", "title": "Forward-Euler step", "statement": "Temporal<Euler>::compute replaces phi by phi_prev - dt*(velocity . grad phi_prev) in interior cells and changes nothing else.", "quantifier": "all grids, fields, velocities, dt, cells", "why_tests_cant": "all data", "anchors": ["src/cpu/temporal-schemes/euler.cc", "src/cpu/temporal.cc"]}
{"id": "C32", "title": "Semi-Lagrangian step: no motion means no change", "statement": "With dt = 0, or with zero velocity and zero velocity gradient, a semi-Lagrangian step (default padding) leaves phi and the used components of psi of every interior cell equal to phi_prev and psi_prev; psi components on unused axes become 0.", "quantifier": "all dimensions, grids, data, dt or velocity", "why_tests_cant": "arbitrary data", "anchors": ["src/cpu/temporal-schemes/semi-lagrangian/euler.cc"]}
{"id": "C33", "title": "Semi-Lagrangian step: exact translation", "statement": "With a uniform velocity and zero velocity gradient, and data sampled from a polynomial of degree <= 3 in each variable, one step gives exactly phi(x - v dt) and its gradient at every interior cell, when the back-traced points stay inside the lattice.", "quantifier": "all dimensions, grids, paddings, polynomials, velocities, dt", "why_tests_cant": "all polynomials, velocities and grids", "anchors": ["src/cpu/temporal-schemes/semi-lagrangian/euler.cc", "src/cpu/interpolation"]}
{"id": "C34", "title": "Semi-Lagrangian step keeps psi the gradient of phi", "statement": "For any differentiable velocity field with its exact gradient stored (row = component, column = derivative), the updated psi is the gradient of the updated phi seen as a function of the arrival point, for arbitrary level-set data.", "quantifier": "all dimensions, differentiable velocity fields, dt, data", "why_tests_cant": "chain rule over all data and positions", "anchors": ["src/cpu/temporal-schemes/semi-lagrangian/euler.cc", "src/cpu/mat3.cc: dot"]}
{"id": "C35", "title": "Time steps never modify ghost cells or the previous fields", "statement": "A semi-Lagrangian or Euler step changes only interior cells of phi, psi and the interpolation buffers; ghost cells, the previous fields, the mixed derivatives and the velocity are unchanged.", "quantifier": "all dimensions, grids, data", "why_tests_cant": "frame condition over all cells", "anchors": ["src/cpu/temporal-schemes/semi-lagrangian/euler.cc", "src/cpu/temporal-schemes/euler.cc"]}
{"id": "C36", "title": "Circle level set is a signed distance", "statement": "AnalyticalFields::Levelset CIRCLE sets every interior phi to the Euclidean distance of the cell position to the centre minus the radius: negative strictly inside, zero on, positive outside, 1-Lipschitz in the position, and leaves other cells unchanged.", "quantifier": "all dimensions, grids, position fields, centres, radii", "why_tests_cant": "all reals", "anchors": ["src/cpu/analytical-fields/levelset.cc"]}
{"id": "C37", "title": "Circular velocity rotates about the given centre", "statement": "CIRCULAR velocity vanishes at the configured centre, is perpendicular to position - centre and has speed (pi/3.15)*distance in the x-y plane, for every centre.", "quantifier": "all centres, positions, dimensions", "why_tests_cant": "tests only use the origin as centre", "anchors": ["src/cpu/analytical-fields/velocity.cc"]}
{"id": "C38", "title": "ANALYTICAL velocity gradient is filled in every interior cell", "statement": "With gradient scheme ANALYTICAL, CIRCULAR velocity stores the exact velocity gradient in every interior cell.", "quantifier": "all grids, cells, centres", "why_tests_cant": "the test checks a few entries of the raw buffer only", "anchors": ["src/cpu/analytical-fields/velocity.cc"]}
{"id": "C39", "title": "Unknown field names have no effect", "statement": "AnalyticalFields Levelset/Velocity with a name that is not known leaves every array unchanged.", "quantifier": "all strings other than the known names, all arrays", "why_tests_cant": "all strings", "anchors": ["src/cpu/analytical-fields/levelset.cc", "src/cpu/analytical-fields/velocity.cc"]}
{"id": "C40", "title": "Release builds compute the circular velocity", "statement": "Computing the CIRCULAR velocity in 2-D or 3-D returns normally with the field filled, in test and in release configuration.", "quantifier": "both configurations, dimensions 2 and 3, all grids", "why_tests_cant": "the unit tests always run with BUILD_TESTS defined", "anchors": ["src/cpu/analytical-fields/velocity.cc", "include/gals/utilities/utilities.h: GALS_FUNCTION_NOT_IMPLEMENTED"]}
{"id": "C41", "title": "The advection loop terminates at the end time", "statement": "In real arithmetic, for dt > 0 the application's time loop performs finitely many steps, at least one, and stops at the first multiple of dt that reaches the end time up to 1e-10.", "quantifier": "all end times and all positive dt", "why_tests_cant": "unbounded number of iterations", "anchors": ["applications/advection/main.cc"]}
{"id": "C42", "title": "The automatic time step respects the CFL bound", "statement": "When constant_dt is NO, the time step is at most half of the smallest cell spacing of the axes.", "quantifier": "all cell counts and boxes", "why_tests_cant": "only special spacings (equal on two axes) trigger the failure", "anchors": ["applications/advection/main.cc", "src/cpu/vec3.cc: min"]}
{"id": "C43", "title": "The time loop starts at the configured start time", "statement": "The simulated interval is [start, end] as given in the time section.", "quantifier": "all start and end times", "why_tests_cant": "all inputs", "anchors": ["applications/advection/main.cc", "src/cpu/input-parser/time.cc"]}
{"id": "C44", "title": "The advection application executes no undefined behaviour", "statement": "For valid inputs one iteration of the application's time loop only reads and writes cells of the grid and performs only defined integer arithmetic.", "quantifier": "all 2-D inputs", "why_tests_cant": "undefined reads return plausible numbers", "anchors": ["applications/advection/main.cc", "src/cpu/gradient/third-order.cc", "src/cpu/grid.cc"]}
{"id": "C45", "title": "Floating-point time accumulation", "statement": "In binary64 arithmetic the time loop terminates for every positive dt and finite end time.", "quantifier": "all positive binary64 dt and end times", "why_tests_cant": "stagnation occurs only after about 2^53 steps", "anchors": ["applications/advection/main.cc"]}
{"id": "C46", "title": "Input sections are independent", "statement": "Parsing succeeds exactly when every section present in the file holds the expected keys with convertible values; it then fills exactly those sections with the values given there, leaves the others at their previous values, and the order of sections and any unknown section are irrelevant (test configuration).", "quantifier": "all input documents", "why_tests_cant": "all subsets and orders of sections", "anchors": ["src/cpu/input-parser.cc", "src/cpu/input-parser/general.cc", "src/cpu/input-parser/grid.cc", "src/cpu/input-parser/time.cc", "src/cpu/input-parser/velocity.cc", "src/cpu/input-parser/levelset.cc"]}
{"id": "C47", "title": "A cells list that is not three numbers is rejected", "statement": "A grid section whose cells or box lists do not have the expected length is reported rather than read out of range.", "quantifier": "all list lengths", "why_tests_cant": "all malformed inputs", "anchors": ["src/cpu/input-parser/grid.cc", "src/cpu/input-parser/levelset.cc"]}
{"id": "C48", "title": "Printing an array writes one record per interior cell", "statement": "operator<< of an array writes exactly numCells product lines, in i-major, then j, then k order, each holding the three coordinates of the node and the value(s) of that cell, tab separated; the cell can be recovered from the line number.", "quantifier": "all grids and arrays", "why_tests_cant": "all sizes", "anchors": ["include/gals/utilities/array.h: operator<<", "include/gals/utilities/vec3.h: operator<<"]}
{"id": "C49", "title": "FileUtils operations", "statement": "createDirectory is idempotent and returns true iff the path exists afterwards, creating at most the directories on the way and failing only when a regular file is on the way; write to a name whose directory exists makes the file exist with that text and changes nothing else; removeFile reports whether it removed something, makes exists false when it did and changes no other path; no sequence of operations leaves an entry without its directory.", "quantifier": "all file-system states, roots, names, operation sequences", "why_tests_cant": "all histories", "anchors": ["src/cpu/file-utils.cc", "include/gals/utilities/file-utils.h"]}
{"id": "C50", "title": "Reference Hermite polynomial agrees with the library", "statement": "The reference hp/hermx/hermy evaluate the same bicubic Hermite interpolant and gradient as the library's 2-D interpolation on the same cell data; both are exact on bicubics.", "quantifier": "all cell data, cell sizes and positions", "why_tests_cant": "two independent formulas over 16 data and all positions", "anchors": ["src/reference/Hermite.h: hp, hermx, hermy", "src/cpu/interpolation/hermite-2d.cc"]}
{"id": "C51", "title": "Reference 1-D Hermite helper", "statement": "hp1D interpolates the two end slopes: its derivative at the ends equals the given psix values.", "quantifier": "all data and dx", "why_tests_cant": "only dx = 1 hides the error", "anchors": ["src/reference/Hermite.h: hp1D"]}
{"id": "C52", "title": "Reference cell search", "statement": "find_advection_point_location stores for every node a cell (cx,cy) with x[cx] <= clamped xadv <= x[cx+1] (same in y), with cx+1 < nx, and the tracker classifies inside/outside per axis.", "quantifier": "all grids of at least 2x2 nodes, all advected positions", "why_tests_cant": "all positions including exact node hits and box boundary", "anchors": ["src/reference/AdvectionPointCalcs.h: find_advection_point_location"]}
{"id": "C53", "title": "CUDA cell search agrees with the serial one", "statement": "The CUDA locationAlgo returns the same cell index as the serial binary search for every position, without reading past the node array.", "quantifier": "all sorted node arrays, all positions", "why_tests_cant": "all positions", "anchors": ["src/reference/CUDA/AdvectionPointCalcsCUDA.cu: locationAlgo", "src/reference/AdvectionPointCalcs.h"]}
{"id": "C54", "title": "Vortex velocity field", "statement": "The single-vortex velocity is divergence free, is tangential at the unit-square boundary, its gradient functions are the true partial derivatives, and it reverses sign under t -> T - t.", "quantifier": "all positions, times and periods", "why_tests_cant": "all reals", "anchors": ["src/reference/VortexVelocity.h"]}
{"id": "C55", "title": "Reference initial level set", "statement": "The initial phi is zero exactly on the circle of radius 0.15 around (0.5,0.75), positive inside, and the psi functions are its true first and mixed derivatives.", "quantifier": "all positions", "why_tests_cant": "all reals", "anchors": ["src/reference/InitializeLevelSet.h"]}
{"id": "C56", "title": "Back-tracing", "statement": "The RK3 and Euler back-tracing of the reference code are exact for constant velocity, and RK3 is third-order exact for velocities linear in time (quadratic trajectories).", "quantifier": "all velocities of that form, dt, positions", "why_tests_cant": "all reals", "anchors": ["src/reference/AdvectionPointCalcs.h: advection_point"]}
{"id": "C57", "title": "Mixed-derivative update", "statement": "update_mixed_derivatives reproduces d2phi/dxdy exactly at every node, corners and edges included, for data whose psi is affine in each variable, and reads only existing nodes for grids of at least 2x2.", "quantifier": "all grids of at least 2x2 nodes, all such data", "why_tests_cant": "nine boundary cases times all sizes", "anchors": ["src/reference/AdvectionPointCalcs.h: update_mixed_derivatives", "src/reference/CUDA/AdvectionPointCalcsCUDA.cu"]}
{"id": "C58", "title": "Parallel loops give the serial result", "statement": "The per-node loops run under OpenMP or as CUDA kernels give, for every interleaving of the nodes, the result of the serial loop.", "quantifier": "all schedules, grids, data", "why_tests_cant": "all interleavings", "anchors": ["src/reference/AdvectionPointCalcs.h", "src/reference/CUDA/AdvectionPointCalcsCUDA.cu"]}
{"id": "C59", "title": "OpenMP mixed-derivative loop is race free", "statement": "update_mixed_derivatives gives the serial result for every interleaving of its parallel iterations.", "quantifier": "all interleavings at the granularity of single reads and writes", "why_tests_cant": "a rare interleaving", "anchors": ["src/reference/AdvectionPointCalcs.h: update_mixed_derivatives"]}
{"id": "C60", "title": "CUDA launch covers the grid", "statement": "The launch configuration runs the kernel for every node exactly once and never outside the arrays.", "quantifier": "all nx, ny, tile sizes", "why_tests_cant": "only sizes not divisible by the tile size fail", "anchors": ["src/reference/CUDA/GALS_Advection.cu"]}
{"id": "C61", "title": "MPI exchange transmits the second half of the domain", "statement": "After the exchange rank 0 holds for every column of the second half the values rank 1 computed, for every nx, ny.", "quantifier": "all nx, ny, data", "why_tests_cant": "the wrong datatype still completes without an MPI error", "anchors": ["src/reference/GALS_Advection_MPI.cpp", "src/reference/GALS_Advection_MPI_OpenMP.cpp"]}
{"id": "C62", "title": "Serial and MPI/OpenMP back-tracing agree on every node", "statement": "advection_point and advection_point_MPI over the whole range give the same arrival points for all nodes.", "quantifier": "all grids, velocities", "why_tests_cant": "all sizes", "anchors": ["src/reference/AdvectionPointCalcs.h: advection_point, advection_point_MPI"]}
{"id": "C63", "title": "Reference number of time steps and outputs", "statement": "The reference main performs floor(Tfinal/dt) steps and prints the initial state plus one block per printstep steps.", "quantifier": "all Tfinal, dt > 0, printstep > 0", "why_tests_cant": "all parameters", "anchors": ["src/reference/SerialCode/GALS_Advection.cpp"]}
{"id": "C64", "title": "Interpolation returns stored node data whatever the padding", "statement": "On a grid with any padding >= 1, interpolating at the position the grid reports for a cell returns the phi stored in that cell.", "quantifier": "all paddings, grids, cells, stored data", "why_tests_cant": "tests use the default padding and smooth data; a larger padding silently turns interpolation into extrapolation", "anchors": ["src/cpu/grid.cc: Grid::generate", "include/gals/utilities/grid.h: Grid::baseNodeId", "src/cpu/interpolation/hermite-1d.cc: interpolate"]}
{"id": "C65", "title": "Gradient limiting leaves quadratic data alone", "statement": "With use_gradient_limiting, data sampled from a quadratic (no spurious extremum) are interpolated exactly as without limiting.", "quantifier": "all 1-D grids, quadratics, positions", "why_tests_cant": "the deviation is a property of the branch conditions for all data values", "anchors": ["include/gals/cpu/interpolation/hermite.h: get_control_points"]}
{"id": "C66", "title": "Second-order scheme: error bound on smooth fields", "statement": "If the sampled field is three times differentiable along each axis near every interior cell and its third derivative is bounded by M, every component of the second-order gradient differs from the partial derivative by at most M h^2 / 6.", "quantifier": "all dimensions, grids with padding >= 1, three times differentiable fields, interior cells", "why_tests_cant": "ranges over all smooth fields and grids; a test sees one convergence curve", "anchors": ["src/cpu/gradient/second-order-central.cc"]}
{"id": "C67", "title": "Third-order scheme: error bound on smooth fields", "statement": "If the sampled field is four times differentiable along each axis near every interior cell and its fourth derivative is bounded by M, every component of the third-order gradient differs from the partial derivative by at most M h^3 / 6, given two ghost layers.", "quantifier": "all dimensions, grids with padding >= 2, four times differentiable fields, interior cells", "why_tests_cant": "ranges over all smooth fields and grids", "anchors": ["src/cpu/gradient/third-order.cc"]}
{"id": "C68", "title": "Third-order scheme: two ghost layers are needed on every grid", "statement": "The third-order gradient of a scalar or vector field completes without touching memory outside the array exactly when the grid has at least two ghost layers; with one layer it reads outside the array on every grid of every dimension.", "quantifier": "all dimensions, cell counts, paddings >= 1, data", "why_tests_cant": "an out-of-bounds read usually returns a plausible number", "anchors": ["src/cpu/gradient/third-order.cc", "src/cpu/grid.cc"]}
{"id": "C69", "title": "Vector gradient: which difference quotient each entry is", "statement": "For arbitrary vector data, entry (r,d) of the gradient is the difference of component r along axis r, divided by the spacing of axis d; entries outside the used axes and ghost cells are unchanged.", "quantifier": "both schemes, all dimensions, data, interior cells", "why_tests_cant": "all data and grids", "anchors": ["src/cpu/gradient/second-order-central.cc", "src/cpu/gradient/third-order.cc"]}
{"id": "C70", "title": "What the forward-Euler step computes", "statement": "Temporal<Euler>::compute sets phi to phi_prev - dt * (first velocity component) in every interior cell, whatever the gradient of phi, and changes nothing else.", "quantifier": "all grids, data, velocities, dt, number types", "why_tests_cant": "all data", "anchors": ["src/cpu/temporal-schemes/euler.cc"]}
{"id": "C71", "title": "Semi-Lagrangian step follows the characteristics", "statement": "Each interior cell's new phi is the interpolant of the previous fields at position - dt*velocity of that cell, and its new psi is the interpolated psi multiplied by the transpose of (identity - dt * velocity gradient); the step completes whenever those interpolations do.", "quantifier": "all dimensions, grids, data, velocities, dt", "why_tests_cant": "all data and velocities", "anchors": ["src/cpu/temporal-schemes/semi-lagrangian/euler.cc"]}
{"id": "C72", "title": "What the CIRCULAR velocity is", "statement": "CIRCULAR with centre list (c0, c1, ...) is the rigid rotation with angular speed pi/3.15 about the point (c1, c0), the configured centre with its coordinates swapped, for every centre.", "quantifier": "all 2-D and 3-D grids with at least one ghost layer, position fields, centres", "why_tests_cant": "tests use the origin as centre", "anchors": ["src/cpu/analytical-fields/velocity.cc"]}
{"id": "C73", "title": "Where the ANALYTICAL velocity gradient is stored", "statement": "With gradient scheme ANALYTICAL the CIRCULAR field changes the gradient only in the two ghost cells that come first in memory, and only the first two entries of their first row; with any other scheme name the gradient is untouched.", "quantifier": "all 2-D and 3-D grids, paddings >= 1, data, number types", "why_tests_cant": "the test inspects exactly these two raw slots", "anchors": ["src/cpu/analytical-fields/velocity.cc", "src/cpu/array.cc: operator[]", "src/cpu/mat3.cc: operator[]"]}
{"id": "C74", "title": "A non-positive time step hangs the application", "statement": "With dt <= 0 and an end time beyond 1e-10 the time loop never stops: the application neither rejects the time step nor terminates.", "quantifier": "all dt <= 0 and all end times above 1e-10, any loop body that completes", "why_tests_cant": "non-termination cannot be observed by a test", "anchors": ["applications/advection/main.cc: main"]}
{"id": "C75", "title": "Release builds exit on every levelset section", "statement": "In a build without BUILD_TESTS, reading any input file that is accepted by a test build and has a levelset section ends the process with status 0 before anything is computed or written; files without one are read as in a test build.", "quantifier": "all input documents", "why_tests_cant": "the unit tests always run with BUILD_TESTS defined", "anchors": ["src/cpu/input-parser/levelset.cc", "include/gals/utilities/vec3.h", "applications/advection/main.cc"]}
{"id": "C76", "title": "The root directory does not affect file operations", "statement": "setRootDirectory only changes what getRootDirectory returns: the results and file-system effects of any sequence of file operations are the same whatever the root directories.", "quantifier": "all operation sequences, roots, file-system states", "why_tests_cant": "all histories", "anchors": ["src/cpu/file-utils.cc", "include/gals/utilities/file-utils.h"]}
{"id": "C77", "title": "Silent file failures", "statement": "write to a name whose directory is missing, or that is a directory, changes nothing and reports nothing; createDirectory on the name of an existing regular file returns true and changes nothing.", "quantifier": "all file-system states and names", "why_tests_cant": "all states", "anchors": ["src/cpu/file-utils.cc", "include/gals/utilities/file-utils.h"]}
{"id": "C78", "title": "SuperConsistent gradient transport", "statement": "The SuperConsistent scheme returns at every node exactly the gradient of the map node -> interpolant(foot of the characteristic), for both back-tracing schemes and every velocity field whose gradient functions are the true derivatives (the vortex is one).", "quantifier": "all velocity fields with true gradients, nodes, times, time steps, cell data", "why_tests_cant": "a derivative of a composition of four stages, for all reals", "anchors": ["src/reference/TimeSteppingMethods.h: SuperConsistentScheme", "src/reference/AdvectionPointCalcs.h: advection_point, update_levelset_data"]}
{"id": "C79", "title": "Heun gradient update is Heun's method", "statement": "The Heun option advances the gradient from the foot of the characteristic to the node by one step of Heun's method for psi' = -(grad u)^T psi.", "quantifier": "all velocity fields, nodes, feet, gradients, steps", "why_tests_cant": "the deviation is of second order in dt and vanishes for uncoupled gradients", "anchors": ["src/reference/TimeSteppingMethods.h: Heuns_internal"]}
{"id": "C80", "title": "One reference time step advances interior positions by the Hermite interpolant", "statement": "One time step of the serial or OpenMP reference program is free of undefined behaviour, and every node whose back-traced position lies strictly inside the box gets as new phi the Hermite value, and as new psi the gradient scheme applied to the Hermite gradient, of a cell that contains the position.", "quantifier": "all boxes, grids of at least 3x3 nodes, flows, data, steps", "why_tests_cant": "all positions and data; a wrong cell or array is visible only for some of them", "anchors": ["src/reference/SerialCode/GALS_Advection.cpp", "src/reference/GALS_Advection_OpenMP.cpp", "src/reference/AdvectionPointCalcs.h: update_levelset_data"]}
{"id": "C81", "title": "Reference programs accept two nodes per axis", "statement": "The reference programs run without undefined behaviour for every grid with at least two nodes per axis.", "quantifier": "all grids of at least 2x2 nodes", "why_tests_cant": "reading one element past a vector usually goes unnoticed", "anchors": ["src/reference/AdvectionPointCalcs.h: update_levelset_data", "src/reference/SerialCode/GALS_Advection.cpp"]}
{"id": "C82", "title": "Planes are advected exactly", "statement": "After any number of steps in a constant velocity the OpenMP reference program holds, at every node, the plane it started from moved by velocity times time, with unchanged gradient and zero mixed derivative.", "quantifier": "all planes, constant velocities, time steps, boxes, grids of at least 3x3 nodes, numbers of steps, both schemes", "why_tests_cant": "all histories", "anchors": ["src/reference/GALS_Advection_OpenMP.cpp", "src/reference/AdvectionPointCalcs.h"]}
{"id": "C83", "title": "No velocity, no change", "statement": "In a velocity field that vanishes, one step leaves phi and both gradient components of every traced node as they were, whatever they are.", "quantifier": "all data, boxes, grids of at least 3x3 nodes", "why_tests_cant": "all data", "anchors": ["src/reference/AdvectionPointCalcs.h"]}
{"id": "C84", "title": "Walls of the vortex box", "statement": "In the vortex flow on the unit square the boundary nodes keep their phi and gradient for any number of steps.", "quantifier": "all data, grids, steps, both programs", "why_tests_cant": "all histories", "anchors": ["src/reference/VortexVelocity.h", "src/reference/AdvectionPointCalcs.h"]}
{"id": "C85", "title": "Serial and OpenMP programs agree on the shipped problem", "statement": "For the vortex flow on the unit square the serial program and the OpenMP program run by one thread hold the same level set data after any number of steps, although the serial one does not trace the last row and column.", "quantifier": "all data, grids of at least 3x3 nodes, steps", "why_tests_cant": "all histories", "anchors": ["src/reference/SerialCode/GALS_Advection.cpp", "src/reference/GALS_Advection_OpenMP.cpp"]}
{"id": "C86", "title": "Serial program treats the last row and column like other nodes", "statement": "After one step of the serial program every node of the last row and column holds the interpolant at its own back-traced position.", "quantifier": "all boxes, flows, data", "why_tests_cant": "the shipped test case is on a box where the error is invisible", "anchors": ["src/reference/AdvectionPointCalcs.h: advection_point", "src/reference/SerialCode/GALS_Advection.cpp"]}
{"id": "C87", "title": "CUDA program computes what the OpenMP program computes", "statement": "For every interleaving of the threads of every kernel, each time step of the CUDA program is defined and leaves on the device the data the OpenMP program's step computes, and the program prints a block with those data at every print step.", "quantifier": "all grids, tile sizes, boxes, flows, time steps, interleavings", "why_tests_cant": "all interleavings and flows", "anchors": ["src/reference/CUDA/GALS_Advection.cu", "src/reference/CUDA/AdvectionPointCalcsCUDA.cu", "src/reference/CUDA/HermiteCUDA.cu"]}
{"id": "C88", "title": "CUDA program reads only initialised memory", "statement": "No kernel of the CUDA program reads device memory that has not been written.", "quantifier": "all grids, flows, time steps, interleavings", "why_tests_cant": "fresh device memory often happens to be zero", "anchors": ["src/reference/CUDA/AdvectionPointCalcsCUDA.cu: find_advection_point_location_cuda", "src/reference/CUDA/GALS_Advection.cu"]}
{"id": "C89", "title": "CUDA program prints the current data", "statement": "Each block the CUDA program prints holds the values of phi, psix, psiy and psixy that are on the device at that time.", "quantifier": "all grids, flows, print steps", "why_tests_cant": "the stale values are plausible", "anchors": ["src/reference/CUDA/GALS_Advection.cu"]}
{"id": "C90", "title": "The two MPI processes compute what the OpenMP program computes", "statement": "Run with two processes, the MPI program ends, whatever the relative speed of the processes and however many messages MPI stores, and rank 0 then holds and has printed the data of the OpenMP program.", "quantifier": "all interleavings of the two processes, all message buffer capacities, grids, flows, numbers of steps", "why_tests_cant": "the order of sends, receives and computations differs from run to run; one MPI implementation shows one buffering", "anchors": ["src/reference/GALS_Advection_MPI.cpp"]}
{"id": "C91", "title": "Gradient update beyond one side of the box is Heun's method", "statement": "At a node whose characteristic leaves the box through one side, the tangential derivative is advanced from its interpolated value by one step of Heun's method for psi_t' = -(u_t psi_t + v_t psi_n + v psi_xy), the other derivatives being those of the node.", "quantifier": "all velocity fields, nodes, data, time steps", "why_tests_cant": "the deviation is a product of dt, the velocity gradient and the change of the derivative and vanishes on the walls of the shipped flow", "anchors": ["src/reference/TimeSteppingMethods.h: Heuns_X, Heuns_Y"]}
{"id": "C92", "title": "Reference output files: layout and precision", "statement": "The reference program writes details.txt with its eleven parameters and six text files, each with one block for the initial state and one per printing interval: ny lines of nx comma separated numbers with ten decimals and an empty line, each number being the value of phi, psix, psiy, psixy or a velocity component at that node and time to within half a unit of the tenth decimal.", "quantifier": "all settings with at least three nodes per axis, all flows, all step counts and printing intervals, both traversal variants", "why_tests_cant": "all settings and flows, all blocks, all nodes", "anchors": ["src/reference/Allocation.h: fileprint", "src/reference/SerialCode/GALS_Advection.cpp"]}
{"id": "C93", "title": "The plotting script reads back what the reference program wrote", "statement": "Readfiles.m loads every block of every file the reference program wrote, with the values at the right row, column and time.", "quantifier": "all settings, step counts and printing intervals", "why_tests_cant": "whether the script fails depends on the remainder of the step count by the printing interval", "anchors": ["src/reference/Readfiles.m", "src/reference/Allocation.h: fileprint"]}
{"id": "C94", "title": "The first serial program is defined and computes its step function", "statement": "With at least two nodes per axis the first serial program ends without undefined behaviour; its arrays then hold the data after floor(T_final/dt) steps from the initial data, where a step updates each node from the first cell touching it that is of use.", "quantifier": "all flows, settings with at least two nodes per axis, step counts, grids of fewer than 2^31 nodes (refuted beyond)", "why_tests_cant": "all grids and flows; the result depends on the order in which cells sharing a node are visited", "anchors": ["src/reference/OldSerialCode/GALS_Advection.cpp: main"]}
{"id": "C95", "title": "The rewritten programs give the results of the first one", "statement": "The first serial program and the later programs, started from the same data, hold the same phi, psix, psiy and psixy after every number of steps.", "quantifier": "all flows, data, grids, step counts", "why_tests_cant": "the programs differ only for positions exactly on a limit of the box or farther than one cell, which smooth test flows in the interior do not reach", "anchors": ["src/reference/OldSerialCode/GALS_Advection.cpp", "src/reference/SerialCode/GALS_Advection.cpp", "src/reference/AdvectionPointCalcs.h"]}
{"id": "C96", "title": "The first serial program transports data over more than one cell per step", "statement": "Every node receives the data found at the position it is traced back to, however far inside the box that is.", "quantifier": "all flows, time steps, nodes", "why_tests_cant": "nothing is reported: the node silently keeps its old data", "anchors": ["src/reference/OldSerialCode/GALS_Advection.cpp"]}
{"id": "C97", "title": "The first serial program moves planes exactly", "statement": "In a constant velocity field of at most one cell per step a linear level set is transported exactly, with its gradient, at every node including the boundary, over any number of steps.", "quantifier": "all planes, velocities within one cell per step, grids, step counts", "why_tests_cant": "all grids, directions and step counts, including positions on and beyond the limits", "anchors": ["src/reference/OldSerialCode/GALS_Advection.cpp"]}
{"id": "C98", "title": "Hermite interpolation of a smooth field is fourth order accurate, its gradient third order", "statement": "When the level set holds value, gradient and mixed derivatives of a smooth field at the cell centres, interpolating without limiting at any position of the lattice returns the field's value up to an explicit multiple of h^4 times its fourth derivatives, and its gradient up to h^3, in 1, 2 and 3 dimensions; with equal spacings h <= 1 and derivatives of at most M: M h^4/100 and M h^3/14.", "quantifier": "all smooth fields, grids, dimensions, positions between node centres", "why_tests_cant": "a test compares a few positions of a few fields; the order of accuracy is a statement about all fields and all spacings", "anchors": ["src/cpu/interpolation/hermite-1d.cc: interpolate", "src/cpu/interpolation/hermite-2d.cc: interpolate", "src/cpu/interpolation/hermite-3d.cc: interpolate"]}
{"id": "C99", "title": "Semi-Lagrangian step: error of one step", "statement": "If the level set holds a smooth field and each interior node is reached after dt by a particle path that arrives with the stored velocity and accelerates by at most K, the value computed at the node is the field's value at the start of the path up to the interpolation error (C98) plus K dt^2/2 times the sum of the bounds on the field's slopes; the computed gradient is that of the field carried along straight lines up to the interpolation error.", "quantifier": "all smooth fields, velocity fields, paths, grids, dimensions, time steps whose feet stay in the lattice", "why_tests_cant": "the order in dt and h is a statement about all fields and all step sizes", "anchors": ["src/cpu/temporal-schemes/semi-lagrangian/euler.cc: compute"]}
{"id": "C100", "title": "Linear interpolation is second order accurate", "statement": "Linear interpolation of the node values of a field whose second derivative is at most M returns the field's value up to M h^2/8, anywhere in the lattice.", "quantifier": "all fields with bounded second derivative, grids, positions", "why_tests_cant": "all fields, positions and spacings", "anchors": ["src/cpu/interpolation/linear-1d.cc"]}
{"id": "C101", "title": "Grid positions in double arithmetic", "statement": "With double arithmetic and padding 1, every position a grid generates, ghost cells included, is finite and within 2^-47 times max(|min|,|max|) of the exact cell centre. Distinct cells are not guaranteed distinct positions: far from the origin they can coincide (refuted).", "quantifier": "all boxes with finite bounds of size up to 2^1000 and spacing at least 2^-900, all cell counts, dimensions, cells", "why_tests_cant": "rounding depends on every bit of the bounds and counts", "anchors": ["src/cpu/grid.cc: generate"]}
{"id": "C102", "title": "Base node of a grid position in double arithmetic", "statement": "With double arithmetic, when max(|min|,|max|) is at most 2^43 spacings, baseNodeId of the position of an interior cell is on every axis that cell or the one below it. It is not always the cell itself: with 5 cells on (-1,1) the first cell gets -1 (refuted).", "quantifier": "all such boxes, cell counts, dimensions, cells", "why_tests_cant": "rounding depends on every bit of the bounds and counts", "anchors": ["src/cpu/grid.cc: baseNodeId, generate"]}
{"id": "C103", "title": "Interpolation in double arithmetic stays inside storage", "statement": "With double arithmetic, interpolating at any finite position in the box, or outside by at most 3/8 of a cell, reads only stored nodes (ghost layer included) and returns a result, whatever the rounding errors.", "quantifier": "all boxes in the exponent range, cell counts, dimensions, paddings >= 1, positions, level sets, limiter on or off", "why_tests_cant": "a single badly rounded position out of 2^64 would read out of bounds", "anchors": ["src/cpu/interpolation/hermite-1d.cc", "src/cpu/interpolation/hermite-2d.cc", "src/cpu/interpolation/hermite-3d.cc", "src/cpu/grid.cc: baseNodeId"]}
{"id": "C104", "title": "Semi-Lagrangian step in double arithmetic stays inside storage", "statement": "With double arithmetic, a semi-Lagrangian step in which every displacement v dt is at most 3/4 of a cell completes without undefined behaviour and changes interior nodes only. With displacements of up to one whole cell, allowed in exact arithmetic, it can read out of bounds (refuted).", "quantifier": "all boxes with max(|min|,|max|) at most 2^43 spacings, cell counts, dimensions, velocity fields, level sets, time steps", "why_tests_cant": "rounding depends on every bit of the inputs", "anchors": ["src/cpu/temporal-schemes/semi-lagrangian/euler.cc: compute"]}
{"id": "C105", "title": "OpenMP program with any number of threads", "statement": "The OpenMP program run with one thread computes exactly what the serial sweep computes. Run with more threads, whatever the scheduling of the loops, it should give the same result; this holds for all its loops except the one of the mixed derivatives, which has a data race as soon as two threads take part (refuted).", "quantifier": "all flows, settings, numbers of threads, distributions of iterations and interleavings", "why_tests_cant": "the result depends on the interleaving of the threads; a test sees one", "anchors": ["src/reference/GALS_Advection_OpenMP.cpp: main", "src/reference/AdvectionPointCalcs.h: update_mixed_derivatives"]}
{"id": "C106", "title": "MPI+OpenMP program", "statement": "Two processes with any number of threads each should end with the data and the printed blocks of the OpenMP program, without deadlock. With whole messages, an even number of columns and one thread for the mixed derivatives this holds for every interleaving. As shipped every execution is undefined after the first exchange, and with whole messages there is still a data race (both refuted).", "quantifier": "all flows, proper settings, numbers of threads, buffer capacities, interleavings of processes and threads", "why_tests_cant": "schedules of threads and processes cannot be enumerated", "anchors": ["src/reference/GALS_Advection_MPI_OpenMP.cpp: main"]}
{"id": "C107", "title": "Number of threads on the command line", "statement": "The programs with threads use as many threads as the decimal number given as their argument says. Without an argument the MPI+OpenMP program prints its usage; the OpenMP program reads through a null pointer, and an argument that is no positive number goes unreported (refuted).", "quantifier": "all thread counts below 2^31, all argument strings, flows and settings", "why_tests_cant": "there are infinitely many arguments", "anchors": ["src/reference/GALS_Advection_OpenMP.cpp:68-71", "src/reference/GALS_Advection_MPI_OpenMP.cpp:48-66"]}
{"id": "C108", "title": "Plots show the field", "statement": "The surface drawn by the Octave script Visualize from a printed two-dimensional scalar field has one vertex for every node, at its position and at the height of its value, and joins neighbouring nodes; the arrow plot of a printed velocity has one arrow for every node. The vertices and arrows are right for every grid. The surface joins the right nodes when there are as many cells in x as in y; otherwise it always joins some that are not neighbours, and with several layers the script stops, and nothing is drawn for a one-dimensional grid (all refuted).", "quantifier": "all two-dimensional grids, arrays, number formats that can be read back", "why_tests_cant": "all sizes; square test grids hide the fault", "anchors": ["tools/octave/Visualize.m: Visualize, ShowScalar, ShowVector", "include/gals/utilities/array.h: operator<<"]}
{"id": "C109", "title": "MPI program with any number of processes", "statement": "The MPI program ends, with the data and printed blocks of the OpenMP program in rank 0, whatever the number of processes it is started with. With whole messages and an even number of columns this holds for two processes, and for more if MPI can store five messages per time step of each further process. One process is always ended by MPI in the first step, three or more hang when MPI stores fewer messages, and the program as shipped never ends well (all refuted).", "quantifier": "all numbers of processes, flows, proper settings, buffer capacities and interleavings", "why_tests_cant": "schedules and buffer capacities cannot be enumerated", "anchors": ["src/reference/GALS_Advection_MPI.cpp: main"]}
{"id": "C110", "title": "What interpolation returns for arbitrary stored data", "statement": "On a grid with padding 1, for every stored value, gradient and mixed-derivative data (not only data sampled from polynomials) and every position between node centres, unlimited Hermite interpolation returns phi equal to the tensor product of cubic Bezier curves over the used axes whose control values are built from the corner data of the enclosing cell of nodes, and psi equal to the gradient of that surface. With padding p the same surface is evaluated with every local coordinate decreased by p-1.", "quantifier": "all dimensions, grids, paddings >= 1, stored data, positions in the lattice", "why_tests_cant": "tests compare a few smooth fields at a few points; the formula must hold for arbitrary data and every position", "anchors": ["src/cpu/interpolation/hermite-1d.cc: interpolate", "src/cpu/interpolation/hermite-2d.cc: interpolate", "src/cpu/interpolation/hermite-3d.cc: interpolate", "include/gals/cpu/interpolation/hermite.h: get_control_points"]}
{"id": "C111", "title": "Output files of the MPI programs", "statement": "Whatever the relative speed of the processes and however their streams divide the text into writes, after a run of the MPI program or of the MPI+OpenMP program each output file holds the blocks printed by the program exactly once, as after a run of the serial program.", "quantifier": "all interleavings of the file operations, all divisions into writes, all contents, any number of processes, any earlier files", "why_tests_cant": "the outcome depends on the schedule of operations of different processes on the same directory", "anchors": ["src/reference/GALS_Advection_MPI.cpp: main", "src/reference/GALS_Advection_MPI_OpenMP.cpp: main", "src/reference/Allocation.h: fileprint", "src/reference/Readfiles.m"]}
{"id": "C112", "title": "MPI+OpenMP program with any number of processes", "statement": "Started with two or more processes of any number of threads each, the MPI+OpenMP reference program ends, and rank 0 has and prints what the OpenMP program computes.", "quantifier": "all numbers of processes and threads, all schedules of processes and threads, all buffer sizes of MPI, all grids, flows and settings", "why_tests_cant": "the number of interleavings is unbounded, and whether a send waits depends on the MPI library", "anchors": ["src/reference/GALS_Advection_MPI_OpenMP.cpp: main", "src/reference/AdvectionPointCalcs.h"]}
{"id": "C113", "title": "What interpolation with gradient limiting returns", "statement": "With gradient limiting, interpolation at a position returns the value and gradient of one tensor-product cubic over the cell of nodes around it, whose control values on edges are the limited 1-D ones and whose other control values are obtained from edges by adding a third of the spacing times a slope.", "quantifier": "all dimensions, grids with padding at least one, stored values, positions between the outermost ghost nodes", "why_tests_cant": "the limiter branches on the data of every edge, so the cases multiply beyond enumeration", "anchors": ["include/gals/cpu/interpolation/hermite.h: get_control_points", "src/cpu/interpolation/hermite-1d.cc", "src/cpu/interpolation/hermite-2d.cc", "src/cpu/interpolation/hermite-3d.cc"]}
{"id": "C114", "title": "Continuity of interpolation with gradient limiting", "statement": "The value returned by interpolation with gradient limiting depends continuously on the position.", "quantifier": "all dimensions, grids with padding one, stored values, positions between the outermost ghost nodes", "why_tests_cant": "a jump shows only at positions on a face, and only for data that trigger the limiter", "anchors": ["include/gals/cpu/interpolation/hermite.h: get_control_points", "src/cpu/interpolation/hermite-3d.cc: interpolate"]}
{"id": "C115", "title": "Rounding error of interpolation", "statement": "Interpolation in double returns finite numbers whose distance from the result of the same program in exact arithmetic is bounded: by rho 2^(4 dim - 38) M for the value and by rho 2^(4 dim - 38) M / h for the gradient, where M bounds the stored data (derivatives multiplied by spacings), h is the spacing and rho the distance of the box from the origin in cells.", "quantifier": "all dimensions, grids with padding one and moderate spacings, finite stored data, positions in the box or at most three eighths of a cell outside", "why_tests_cant": "the error depends on every rounding of up to two hundred operations and on which cell the rounded position falls in; the worst data are not known", "anchors": ["src/cpu/interpolation/hermite-1d.cc", "src/cpu/interpolation/hermite-2d.cc", "src/cpu/interpolation/hermite-3d.cc", "include/gals/cpu/interpolation/hermite.h", "src/cpu/grid.cc: baseNodeId"]}
{"id": "C116", "title": "Rounding error of a semi-Lagrangian step", "statement": "A semi-Lagrangian step in double completes, and the new value and gradient at every interior node are finite and within a bound (that of C115 for the value, eight times it for the gradient) of what the same step computes in exact arithmetic.", "quantifier": "all dimensions, grids with padding one and moderate spacings, finite data and velocities that move no particle by more than three quarters of a cell", "why_tests_cant": "rounding of the departure point can change the cell that is read, and a test compares only a few cases", "anchors": ["src/cpu/temporal-schemes/semi-lagrangian/euler.cc: compute", "src/cpu/interpolate.cc", "src/cpu/mat3.cc: dot"]}
{"id": "C117", "title": "A step at rest in double", "statement": "A semi-Lagrangian step in double with zero velocity changes nothing.", "quantifier": "all dimensions, grids with padding one and moderate spacings, finite data", "why_tests_cant": "the loss depends on the ratio of slope to value, which tests choose near one", "anchors": ["src/cpu/temporal-schemes/semi-lagrangian/euler.cc: compute", "src/cpu/interpolation/hermite-1d.cc"]}
{"id": "C118", "title": "Several steps compose", "statement": "Running several semi-Lagrangian steps in a row, each time keeping the last fields as previous fields as the main loop does, moves the level set by the sum of the displacements: steps at rest change nothing, and a polynomial of degree at most three per axis carried by a uniform flow is, after any number of steps, the polynomial shifted by the total displacement, with its gradient.", "quantifier": "all dimensions, grids with padding one, numbers of steps, displacements of at most one cell per step and axis", "why_tests_cant": "tests run at most one step, errors of the boundary and of the mixed derivatives appear from the second step on", "anchors": ["applications/advection/main.cc", "src/cpu/temporal-schemes/semi-lagrangian/euler.cc: compute"]}
{"id": "C119", "title": "The 1-D loop is stable", "statement": "In 1-D, under uniform flows moving at most one cell per step, no number of steps raises the bending energy of the level set (the integral of the squared second derivative of the piecewise cubic through the stored values and slopes) on any stretch of cells above its initial energy on that stretch widened by one cell per step on each side; so slopes at distance k cells never differ by more than the square root of k h times the initial energy.", "quantifier": "all 1-D grids, stored values and slopes, numbers of steps, displacement histories of at most one cell per step", "why_tests_cant": "stability is a bound over all step counts and all data", "anchors": ["applications/advection/main.cc", "src/cpu/temporal-schemes/semi-lagrangian/euler.cc: compute", "src/cpu/interpolation/hermite-1d.cc"]}
{"id": "C120", "title": "The 1-D loop converges", "statement": "In 1-D, if the level set starts as samples of a function with fourth derivative bounded by M and is carried by uniform flows of at most one cell per step, then after any number of steps, in every cell that the ghost cells cannot have reached, phi differs from the shifted function by at most M L^2 h^2 / 22 and psi from its derivative by at most 3/8 M L^2 h (L the length of the domain, h the cell size).", "quantifier": "all 1-D grids, four times differentiable functions, numbers of steps and displacement histories", "why_tests_cant": "convergence is a statement about all refinements and all smooth functions", "anchors": ["applications/advection/main.cc", "src/cpu/temporal-schemes/semi-lagrangian/euler.cc: compute", "src/cpu/interpolation/hermite-1d.cc"]}
{"id": "C121", "title": "One iteration of the program", "statement": "An iteration of the main loop keeps the current level set and its gradient as previous fields and sets every interior cell to the previous level set interpolated at the point the flow of this iteration came from; ghost cells keep their values; without motion nothing changes.", "quantifier": "all grids, level sets, velocities that keep the departure points inside the ghost nodes, time steps", "why_tests_cant": "the main program has no test; the data that reveal a wrong copy or shift are arbitrary", "anchors": ["applications/advection/main.cc", "src/cpu/gradient.cc", "src/cpu/temporal.cc"]}
{"id": "C122", "title": "Rounding error of the gradient schemes", "statement": "On finite doubles of size at most M the second- and third-order gradients, of scalar and of vector fields, complete with finite results that differ from the exact difference quotients of the same data by at most 2^-49 M/h and 2^-48 M/h; ghost cells and unused components are left alone.", "quantifier": "all dimensions, grid sizes, paddings of at least 1 (2 for third order), boxes within 2^30 cells of the origin with moderate spacings, finite data, overflow modes", "why_tests_cant": "tests compare with tolerances on a few fields; the bound has to hold for all data and all boxes, including cancellation and far boxes", "anchors": ["src/cpu/gradient/second-order-central.cc: compute", "src/cpu/gradient/third-order.cc: compute", "include/gals/utilities/grid.h: dX"]}
{"id": "C123", "title": "Total error of the gradients in double", "statement": "If the doubles in the cells are within delta of a smooth function, the computed gradient is within K h^2/6 + delta/h + 2^-49 M/h of the true derivative for the second-order scheme, and within K h^3/6 + 2 delta/h + 2^-48 M/h for the third-order scheme, K bounding the third, respectively fourth, derivative.", "quantifier": "all smooth functions, all dimensions, grid sizes, paddings, boxes with moderate spacings, all perturbations of the samples", "why_tests_cant": "the trade-off between truncation and amplified data error holds for all functions, data and spacings", "anchors": ["src/cpu/gradient/second-order-central.cc: compute", "src/cpu/gradient/third-order.cc: compute"]}
{"id": "C124", "title": "Circle level set in double", "statement": "If the positions, the centre and the radius are at most A in size, every value the CIRCLE level set stores is finite and within 2^-47 A of the signed distance of the stored position. On the positions generated by the grid it is within 2^-45 A of the signed distance of the exact cell centre, and it has the right sign wherever that distance exceeds the bound.", "quantifier": "all dimensions, grid sizes, boxes, circles, positions, histories of name lookups, with A between 2^-200 and 2^200", "why_tests_cant": "squares, sums and a square root are rounded for every cell and circle; tests compare a few values with a tolerance", "anchors": ["src/cpu/analytical-fields/levelset.cc: compute", "include/gals/utilities/vec3.h: mag"]}
{"id": "C125", "title": "Circular velocity in double", "statement": "The constant used for pi is the double nearest to pi, and every velocity the CIRCULAR field stores is finite and within 2^-49 A of the rotation with angular speed pi/3.15 of the stored position, A bounding the coordinates; on grid positions it is within 2^-46 A of the rotation at the exact cell centre.", "quantifier": "all 2-D and 3-D grids, boxes, centres, positions, times and histories, with A between 2^-200 and 2^200", "why_tests_cant": "the bound holds for all positions and centres, and pi itself is irrational", "anchors": ["src/cpu/analytical-fields/velocity.cc: compute", "include/gals/utilities/utilities.h: pi"]}
{"id": "C126", "title": "Rounding error of a sequence of steps", "statement": "In one dimension, with a uniform velocity, displacements of at most 3/4 of a cell and initial doubles within rounding error of the exact data, N semi-Lagrangian steps in double stay within 6 (N+1)^2 sqrt(n+1) e of the values, and within 47 (N+1)^2 sqrt(n+1) e/h of the slopes, computed by the same program with exact arithmetic, in every cell the ghost layers have not reached. Every stored value there is finite. Here e is the rounding bound of one interpolation and h the spacing.", "quantifier": "all 1-D grids and boxes of doubles, all schedules of time steps and uniform velocities, all initial data, any number of steps such that the bound stays below a fixed fraction of the data", "why_tests_cant": "rounding errors accumulate over the steps in a way that depends on every double involved; a test compares a few runs with a tolerance", "anchors": ["src/cpu/temporal-schemes/semi-lagrangian/euler.cc: compute", "src/cpu/interpolation/hermite-1d.cc", "applications/advection/main.cc"]}
{"id": "C127", "title": "Total error of a sequence of steps in double", "statement": "In one dimension, N steps in double from correctly rounded samples of a function with fourth derivative bounded by M4 return finite values within M4 L^2 h^2/22 + 6 q e of the translated function, and slopes within 3/8 M4 L^2 h + 47 q e/h of its derivative, with q = (N+1)^2 sqrt(n+1), L the length of the box, in every cell the ghost layers have not reached.", "quantifier": "all 1-D grids and boxes of doubles, all four times differentiable functions, all schedules of uniform velocities and time steps moving at most 3/4 of a cell", "why_tests_cant": "it combines the discretisation error and the rounding error for every smooth function, grid and number of steps", "anchors": ["src/cpu/temporal-schemes/semi-lagrangian/euler.cc: compute", "src/cpu/interpolation/hermite-1d.cc", "applications/advection/main.cc"]}
{"id": "C128", "title": "Files hold six significant digits", "statement": "Every finite double written by the library's output operators is read back from the file as the nearest number with six significant decimal digits, within 5 millionths of its size; infinities and NaN are read back as such, the order of two numbers is kept, and decimal numbers of at most six digits come back unchanged. Each line of a printed scalar or vector field yields position and value of its cell in this way. The nodes of a grid are printed with distinct coordinates: refuted, of three coordinates in one decade closer together than a unit of the sixth digit two are printed alike.", "quantifier": "all doubles, all grids, all arrays of doubles and vectors", "why_tests_cant": "there are 2^64 doubles, and the cases around powers of ten and ties are rare", "anchors": ["include/gals/utilities/array.h: operator<<", "include/gals/utilities/vec3.h: operator<<", "src/cpu/file-utils.cc: write", "tools/octave/Visualize.m"]}
{"id": "C129", "title": "Errors in the data are amplified by at most a constant", "statement": "In exact arithmetic, if two level sets on the same grid hold data that differ by at most A in the values and by at most A divided by the spacings in each derivative, then at every point of the lattice of cell centres the unlimited interpolation of the two gives values that differ by at most (5/4)^dim A and gradient components that differ by at most 4 (5/4)^(dim-1) A divided by the spacing of that axis. One semi-Lagrangian step with the same velocity keeps the same bound for the values, and for the gradients the same bound combined with the matrix identity minus time step times velocity gradient.", "quantifier": "every dimension, grid size, box, pair of level sets, bound A, point of the lattice, velocity field whose feet stay in the lattice, and time step", "why_tests_cant": "A test perturbs a few entries; the bound concerns every perturbation of all the cells at once and every point between the centres.", "anchors": ["src/cpu/interpolation/hermite-1d.cc: interpolate", "src/cpu/interpolation/hermite-2d.cc: interpolate", "src/cpu/interpolation/hermite-3d.cc: interpolate", "src/cpu/temporal-schemes/semi-lagrangian/euler.cc: compute"]}
{"id": "C130", "title": "Total error of interpolation and of one step in double", "statement": "Let the data stored in doubles lie within eps (derivatives: eps divided by the spacings) of a smooth field and its derivatives at the cell centres. Then the value interpolated in double at any point of the box differs from the field by at most the fourth-order error bound of the method plus (5/4)^dim eps plus a rounding bound, and each gradient component by the third-order bound plus 4 (5/4)^(dim-1) eps over the spacing plus a rounding bound. After one semi-Lagrangian step in double the new value differs from the field at the start of any path that arrives at the cell centre with the stored velocity by the same terms plus half the acceleration bound times the square of the time step times the slopes of the field; all results are finite.", "quantifier": "every dimension, grid size, fine box, smooth field with bounded derivatives, stored doubles within eps of it, point in the box, velocity slow enough for three quarters of a cell, and path with bounded acceleration", "why_tests_cant": "Tests compare with a tolerance on one grid and one field; the bound separates the method, the data and the rounding for every field and every grid.", "anchors": ["src/cpu/interpolation/hermite-1d.cc: interpolate", "src/cpu/interpolation/hermite-2d.cc: interpolate", "src/cpu/interpolation/hermite-3d.cc: interpolate", "src/cpu/temporal-schemes/semi-lagrangian/euler.cc: compute"]}
{"id": "C131", "title": "Order of the back-trace", "statement": "With the scheme name RK3, tracing a node back over one time step of the reference programs ends within a constant times dt^4 of the point from which the moving fluid really reaches that node, for every velocity with correct gradients; the constant is explicit in bounds on the derivatives of the trajectory and of the velocity. With any other scheme name the distance is at most half the largest acceleration times dt^2.", "quantifier": "every velocity, node, time step number, step size and trajectory through the node with bounded derivatives", "why_tests_cant": "a convergence test looks at a few velocities and step sizes; the order claim is about all of them, and a wrong weight of order dt^3 hides behind the interpolation error", "anchors": ["src/reference/AdvectionPointCalcs.h: advection_point", "src/reference/AdvectionPointCalcs.h: advection_point_MPI"]}
{"id": "C132", "title": "Uniform accuracy of the back-trace for smooth velocities", "statement": "If all partial derivatives of the velocity in space and time up to order three are at most B, the RK3 back-trace of one step ends within smooth_bound(dt, B) = O(dt^4) of the true starting point, whatever the trajectory. The single vortex of the programs is such a velocity, with B the third power of the larger of 2 pi and pi / T_period.", "quantifier": "every velocity with bounded partial derivatives, every trajectory, time step number and step size; every T_period for the vortex", "why_tests_cant": "it covers all trajectories of all smooth velocities at once", "anchors": ["src/reference/AdvectionPointCalcs.h: advection_point", "src/reference/VortexVelocity.h: Velx, Vely, gradUx, gradUy, gradVx, gradVy"]}
{"id": "C133", "title": "Error of one step of the reference programs", "statement": "One time step of the serial or OpenMP reference program gives every traced node whose fluid comes from far enough inside the box the value of the level set at that place, up to an explicit error: the interpolation error h^4/384 M40 + k^4/384 M04 + h k^4/1536 M14, the errors of the data (e0 + (h+k)/4 e1 + h k/16 e2) and the gradient of the level set times the position error, which is O(dt^4) for RK3 and at most K/2 dt^2 for any other scheme name.", "quantifier": "all grids, level sets with bounded derivatives, smooth velocities, data errors, nodes and step numbers", "why_tests_cant": "an order of accuracy for all fields and velocities; the constants separate a wrong weight from the ordinary error", "anchors": ["src/reference/GALS_Advection_OpenMP.cpp: main", "src/reference/AdvectionPointCalcs.h: advection_point_MPI, find_advection_point_location_MPI, update_levelset_data", "src/reference/Hermite.h: hp"]}
{"id": "C134", "title": "One step of the reference programs solves the level set equation up to its order", "statement": "If u solves the level set equation u_t + U u_x + V u_y = 0 and the stored fields are the samples of u at the old time up to stated errors, then after one time step every traced node at least (speed bound times dt plus the trace error) away from the edges holds u at the new time, up to the interpolation error, the data errors and the gradient of u times the trace error; the trajectories this rests on exist and are unique for every velocity with bounded derivatives. In the vortex on the unit square the same holds at every node, walls included, provided the step is small enough against the spacing.", "quantifier": "all grids, step numbers, step sizes, velocities with bounded derivatives up to order three, solutions, data errors and nodes; both schemes; both loop ranges", "why_tests_cant": "it compares the program with the solution of a partial differential equation for all fields and velocities, most of which have no closed form", "anchors": ["src/reference/GALS_Advection_OpenMP.cpp: main", "src/reference/AdvectionPointCalcs.h: advection_point_MPI, find_advection_point_location_MPI, update_levelset_data", "src/reference/VortexVelocity.h: Velx, Vely", "src/reference/Hermite.h: hp"]}
{"id": "C135", "title": "Input objects can be made, filled, read, copied and destroyed like values", "statement": "A program that makes, parses into, reads and destroys any number of InputFields objects sees what it would see if each object held its values itself, every record is deleted exactly once and none is left over. The same is claimed for copies and assignments; there it is refuted: after every history, destroying a copy and its original is undefined, and so is reading the one that is left; parsing into a copy changes the original.", "quantifier": "all finite programs over any number of variables and all documents", "why_tests_cant": "the failures need a particular later history of copies and destructions; no finite set of programs covers all histories", "anchors": ["include/gals/input-fields/input-fields.h: InputFields", "src/cpu/input-fields/input-fields.cc: InputFields, ~InputFields"]}
{"id": "C136", "title": "What a parse leaves in the input object", "statement": "When a parse ends, well or with an exception, the object holds exactly the entries of the document before the first one that cannot be read, everything else is as before, and no other object is touched. A document with all five sections gives the same object whatever was there before, so a failed parse can be repeated. A parse that fails leaves the object as it was: refuted.", "quantifier": "all documents, all previous contents, all other objects", "why_tests_cant": "the state depends on where in the document the failure is, for every document", "anchors": ["src/cpu/input-parser.cc: InputParser::parse", "src/cpu/input-parser/general.cc: parse", "src/cpu/input-parser/grid.cc: parse", "src/cpu/input-parser/time.cc: parse", "src/cpu/input-parser/velocity.cc: parse", "src/cpu/input-parser/levelset.cc: parse"]}
{"id": "C137", "title": "The memory of a reference run does not grow with its length", "statement": "If there is memory for one step there is memory for any number of steps. Refuted: the MPI programs keep the five matrices of every step, so exactly (free memory / bytes of one step) steps succeed and then a null pointer is used; the CUDA program keeps two host grids per printed state. The device memory of the CUDA program is the same after every step, so there one step decides.", "quantifier": "all grid sizes with a 32-bit number of nodes, memory limits, initial contents, numbers of steps and print intervals", "why_tests_cant": "it shows only in runs longer than any test, and for every amount of memory", "anchors": ["src/reference/Allocation.h: alloc_2d_int", "src/reference/GALS_Advection_MPI.cpp: main", "src/reference/GALS_Advection_MPI_OpenMP.cpp: main", "src/reference/CUDA/GALS_Advection.cu: main", "src/reference/CUDA/Allocation.h: fileprint"]}
{"id": "C138", "title": "Readfiles.m shows the run: nodes, times, spacing and error", "statement": "For a run whose blocks can be read, the plots have the nodes of the run as axes and the times of the printed states as titles, edx is the grid spacing, and e is the largest difference between the absolute values of the last printed and the initial level set, each up to the ten decimals of the files; e is at most the largest deviation between the two states. That e measures the deviation is refuted: it is zero whenever the last state is the negative of the first.", "quantifier": "all box sizes, node counts below 2^31, step counts, print intervals, flows; all files for the refutation", "why_tests_cant": "it relates the numbers shown to the run for every parameter set, and the blind spot of the error does not show on runs that go well", "anchors": ["src/reference/Readfiles.m", "src/reference/Allocation.h: fileprint", "src/reference/SerialCode/GALS_Advection.cpp: main"]}
{"id": "C139", "title": "The stored gradient after one reference step is the gradient of the traced function", "statement": "With the SuperConsistent scheme, if the stored fields are samples of a smooth function up to stated errors, then after one time step psix and psiy at every traced node whose back-trace ends inside the box are the gradient, at the node, of that function followed back along the numerical trace, up to the slope errors of the interpolation (third order in the spacing) and the data errors, each multiplied by the derivatives of the trace.", "quantifier": "all grids, step numbers, step sizes, flows whose gradient functions are right, smooth functions with bounded derivatives, data errors and nodes; RK3 or Euler trace, sequential loop or whole-grid kernel", "why_tests_cant": "tests compare gradients for one flow and one grid and cannot bound the error for every smooth function and every data error", "anchors": ["src/reference/TimeSteppingMethods.h: SuperConsistentScheme", "src/reference/Hermite.h: hermx, hermy", "src/reference/AdvectionPointCalcs.h: update_levelset_data"]}
{"id": "C140", "title": "The stored gradient after one reference step is the gradient of the solution", "statement": "If u solves the level set equation and the stored fields are samples of u at the old time up to stated errors, then with the SuperConsistent scheme and a step small against the velocity gradients, psix and psiy at every traced node far enough from the edges are the gradient of u at the new time, up to the slope errors of the interpolation, the data errors, the second derivatives of u times the error of the place of origin and a term of order two in dt. In the vortex on the unit square this holds at every inner node.", "quantifier": "all grids, step numbers, step sizes with V K dt at most 1/4, velocities with bounded derivatives, solutions, data errors and nodes; RK3 or Euler trace, sequential loop or whole-grid kernel", "why_tests_cant": "the gradient of the exact solution is known only for special flows, and a test samples one grid and one step size", "anchors": ["src/reference/TimeSteppingMethods.h: SuperConsistentScheme", "src/reference/AdvectionPointCalcs.h: advection_point_MPI, update_levelset_data", "src/reference/SerialCode/GALS_Advection.cpp: main"]}
{"id": "C141", "title": "With the third-order scheme the stored gradient is accurate to fourth order in the time step", "statement": "If u solves the level set equation and the stored fields are samples of u at the old time up to stated errors, then with the SuperConsistent scheme and the RK3 trace, psix and psiy at every traced node far enough from the edges are the gradient of u at the new time, up to the slope errors of the interpolation, the data errors, the second derivatives of u times the error of the place of origin and a term of order four in dt: the gradient is advanced to the same order as the value. In the vortex on the unit square this holds at every inner node.", "quantifier": "all grids, step numbers, step sizes with V K dt at most 1/4, velocities with four bounded derivatives, solutions, data errors and nodes; sequential loop or whole-grid kernel", "why_tests_cant": "the order of a scheme is a statement about all step sizes and all smooth flows, and the gradient of the exact solution is known only for special flows", "anchors": ["src/reference/TimeSteppingMethods.h: SuperConsistentScheme, RK3", "src/reference/AdvectionPointCalcs.h: advection_point_MPI, update_levelset_data", "src/reference/SerialCode/GALS_Advection.cpp: main"]}
{"id": "C142", "title": "There is exactly one exact level set for a run to be compared with", "statement": "In a flow with bounded derivatives up to order two, such as the vortex of the reference programs, every differentiable level set given at any time extends to exactly one solution of the level set equation for all times. Its value at a place and time is a value of the given level set at a place no further away than the flow can carry a point in the time between. One time step of the program in the vortex takes every node to the value of this solution at the new time, up to the stated bound.", "quantifier": "all smooth flows, differentiable level sets, times, places; all grids, step numbers and step sizes for the step", "why_tests_cant": "existence and uniqueness of the exact solution are statements about all differentiable functions of place and time; without them a bound on the distance to a solution could hold of nothing", "anchors": ["src/reference/VortexVelocity.h: Velx, Vely", "src/reference/InitializeLevelSet.h: initialize", "src/reference/SerialCode/GALS_Advection.cpp: main"]}
{"id": "C143", "title": "After a full period the exact level set is back at its start and the reported error is an error of the run", "statement": "The vortex reverses: at time Tp - s its velocity is the opposite of that at time s. Hence every solution of the level set equation has the same values at time Tp - s as at time s, and at the end of the period the exact level set is the initial one. Therefore, when the last printed state of a run is that at time Tp, the error that Readfiles.m shows is, up to 1e-10, at most the largest deviation of the computed level set from the exact one at a node.", "quantifier": "all periods, times up to half the period, places and solutions; all runs whose files can be read and whose last printed state is at the end of the period, either code variant", "why_tests_cant": "the return of the exact solution holds for every initial level set and place, and is the reason why comparing the last state with the first one measures anything", "anchors": ["src/reference/VortexVelocity.h: Velx, Vely", "src/reference/Readfiles.m: e", "src/reference/SerialCode/GALS_Advection.cpp: main"]}
{"id": "C144", "title": "The first step from the program's own initial level set", "statement": "On the unit square with the swirling flow, the level set the program sets up, advanced by its first time step, differs at every node from the one solution of the level set equation with that start by at most h^4/32 + k^4/32 + h k^4/128 + 2E, where h and k are the cell sizes and E bounds the error of the trace. With the SuperConsistent scheme and RK3 the gradient at every inner node differs by at most an explicit bound of order three in the cell size and four in the time step. With the settings in Setting.h the bounds are below 6e-6 and 1/900.", "quantifier": "all grids of at least three nodes per direction, step sizes and periods for which the trace stays within a cell; all nodes; both variants of the loop", "why_tests_cant": "a continuum of cell sizes, step sizes and periods, and a comparison with an exact solution that has no closed form", "anchors": ["src/reference/InitializeLevelSet.h: initialize, derivxinit, derivyinit, derivxyinit", "src/reference/Allocation.h: allocate_levelset_matrices", "src/reference/VortexVelocity.h: Velx, Vely", "src/reference/SerialCode/GALS_Advection.cpp: main"]}
{"id": "C145", "title": "The walls of the swirling flow hold the exact level set", "statement": "After any number of steps from the program's own start, the level set and its gradient stored at the wall nodes of the unit square are those of the exact solution. True of the level set and of its derivative along the wall. The derivative across the wall stays at its initial value, while the exact one has changed by 2 Tp sin(pi t/Tp) sin^2(pi y) times the derivative along the wall.", "quantifier": "all grids, numbers of steps, step sizes, periods and wall nodes; both variants of the loop", "why_tests_cant": "every number of steps on every grid; the deviation vanishes at the end of the period, where the program's own error is measured", "anchors": ["src/reference/AdvectionPointCalcs.h: find_advection_point_location, update_levelset_data", "src/reference/VortexVelocity.h: gradUx, gradUy, gradVx, gradVy", "src/reference/SerialCode/GALS_Advection.cpp: main"]}
{"id": "C146", "title": "One step of the library solves the level set equation", "statement": "In a smooth flow in the plane, given as velocity and velocity gradient at the cells, one semi-Lagrangian step with a time step in which nothing travels a whole cell changes a smooth level set, stored with its derivatives, into the solution of the level set equation: every new value is within the interpolation error plus a constant times dt^2 of the solution, and so is the new gradient of its gradient, with explicit constants.", "quantifier": "all 2-D grids, smooth level sets with bounded derivatives, smooth bounded flows, start times, time steps below one cell of travel, interior cells", "why_tests_cant": "A test has a few flows with known solutions; the bound is for every flow and level set, whose solutions have no formula.", "anchors": ["src/cpu/temporal-schemes/semi-lagrangian/euler.cc: compute", "src/cpu/interpolation/hermite.cc: compute", "src/cpu/temporal.cc: compute"]}
{"id": "C147", "title": "One step of the library in its circular velocity field", "statement": "With the positions and the CIRCULAR velocity as the program computes them, one semi-Lagrangian step turns the level set: every new value is that of the level set rotated by omega dt about the centre of rotation, and the new gradient is the rotated gradient, up to the interpolation error and dt^2.", "quantifier": "all 2-D grids, centres, smooth level sets, time steps below one cell of travel, interior cells, lookup histories", "why_tests_cant": "Holds for every level set and centre; the missing rotation of the gradient is invisible in a test of phi alone.", "anchors": ["src/cpu/analytical-fields/velocity.cc: compute", "src/cpu/temporal-schemes/semi-lagrangian/euler.cc: compute", "applications/advection/main.cc: main"]}
{"id": "C148", "title": "One step of the library in double arithmetic solves the level set equation", "statement": "In a smooth flow in the plane whose velocity and velocity gradient are stored as doubles with errors eta and etag, on a smooth level set stored as doubles with errors eps, one semi-Lagrangian step in double arithmetic in which nothing travels more than three quarters of a cell completes with finite numbers, and every new value and gradient is that of the solution of the level set equation up to interpolation error, dt^2, dt eta, dt etag, a multiple of eps and the rounding error, with explicit constants.", "quantifier": "all 2-D grids of doubles of moderate size, smooth level sets, smooth bounded flows, stored data within the errors, time steps, interior cells", "why_tests_cant": "No test can separate the four sources of error or cover all flows and data; the bound holds for every one of them.", "anchors": ["src/cpu/temporal-schemes/semi-lagrangian/euler.cc: compute", "src/cpu/interpolation/hermite.cc: compute", "src/cpu/temporal.cc: compute"]}
{"id": "C149", "title": "Rounding in the Hermite interpolation of the reference programs", "statement": "In double arithmetic the Hermite interpolation of the reference programs returns finite numbers, and its value, x-derivative and y-derivative differ from the exact interpolant of the same stored numbers by at most 2^-33 M, 2^-33 M/dx and 2^-33 M/dy, where M bounds the corner values and the corner derivatives multiplied by the cell sizes.", "quantifier": "every finite double cell corner, cell size between 2^-200 and 2^200, corner values, gradients and mixed derivatives, and every position at most two cells from the corner", "why_tests_cant": "the bound concerns every combination of twenty-two doubles; overflow, underflow and cancellation depend on scales that a test does not sweep", "anchors": ["src/reference/Hermite.h: hp", "src/reference/Hermite.h: hermx", "src/reference/Hermite.h: hermy", "src/reference/Hermite.h: basepolynomial"]}
{"id": "C150", "title": "Rounding in the backward trace of the reference programs", "statement": "If the velocity functions in double are within a relative error eps of a smooth exact velocity, the backward trace of a node in double arithmetic, with the one-stage and with the RK3 scheme, is finite and within K eps X of the trace computed in real numbers, where X bounds the box and K is a fixed polynomial in the relative variation c of the velocity (7 + 7c for one stage, 44 + 78c + 68c^2 + 29c^3 for RK3).", "quantifier": "every velocity field with such a double version, every node, step number below 2^32 - 1, finite time step with V dt at most X, every eps between 2^-53 and 2^-12 and every c up to 32", "why_tests_cant": "the bound holds for every velocity function and every double position, time step and step number", "anchors": ["src/reference/AdvectionPointCalcs.h: advection_point", "src/reference/VortexVelocity.h: Velx"]}
{"id": "C151", "title": "A step and a run of the reference program in double arithmetic", "statement": "On a grid whose node coordinates and cell sizes are exact in double, a whole run of the reference program completes in double arithmetic for every velocity, and prints the iterates of the step. One step gives, at every node whose exact trajectory began inside the box by more than the tracing error, a finite value that differs from the transported function by at most the interpolation error, the sample errors, the variation of the function over the tracing error, and 2^-33 times the size of the data. Grids whose limits are integers of at most 25 bits times a power of two and that have a power of two of cells along each axis have exact coordinates.", "quantifier": "every grid with exact coordinates, every velocity in double within eps of a smooth one, all data of bounded size, every step number and both tracing schemes; completion for every velocity whatsoever", "why_tests_cant": "ranges over all velocities, all double data and all grids with exact coordinates", "anchors": ["src/reference/GALS_Advection.cpp: main", "src/reference/AdvectionPointCalcs.h: find_advection_point_location", "src/reference/Hermite.h: hp"]}
{"id": "C152", "title": "The gradients of the reference program in double arithmetic", "statement": "With the SuperConsistent update, Euler or RK3, the new gradient computed in double is finite and differs from the one computed in real numbers from the same inputs by at most a fixed constant times the relative error of the velocity times the size of the slopes. On a grid with exact coordinates, one step gives, at every node whose exact trajectory began inside the box by more than the tracing error, a finite gradient that differs from the gradient of the solution of the level set equation at the new time by at most the interpolation, sample, tracing and time-step errors of the real-number bound plus the rounding errors.", "quantifier": "every grid with exact coordinates, every velocity in double whose values and derivatives are within eps of a smooth velocity, all data of bounded size, every step number, both tracing schemes", "why_tests_cant": "ranges over all velocities, all double data, all grids with exact coordinates and all solutions of the level set equation", "anchors": ["src/reference/TimeSteppingMethods.h: SuperConsistentScheme", "src/reference/Hermite.h: hermx", "src/reference/GALS_Advection.cpp: main"]}
{"id": "C153", "title": "The mixed derivatives computed after each step are second-order accurate", "statement": "After the update of the mixed derivatives of the reference program, the value at every node - inner, edge or corner - is the mixed derivative of the level set function up to a term of order two in the grid steps, plus the error of the given slopes divided by a grid step. After a whole time step, the mixed derivative stored at a node whose neighbours are away from the edges is that of the solution of the level set equation at the new time, within the same bound with the error of the new gradient.", "quantifier": "all grids of at least two by two nodes, all smooth functions with bounded derivatives, all slope data within an error e, all nodes; for a time step all smooth velocities, settings, data and solutions", "why_tests_cant": "a test compares the mixed derivative of a few functions on a few grids; the order of accuracy at edges and corners and the constant hold for every function and grid size", "anchors": ["src/reference/GALS_Advection.cpp: main", "src/reference/AdvectionPointCalcs.h: update_mixed_derivatives"]}
{"id": "C154", "title": "Rounding hardly changes the mixed derivatives of the reference program", "statement": "The mixed derivatives computed in double from finite slopes are finite at every node and differ from those computed in real numbers by at most 2^-48 times the largest slope divided by the smallest grid step. Hence they are the mixed derivatives of the level set function up to the discretisation error and this rounding error, and after one whole time step in double the mixed derivative stored at a node whose neighbours are traced to the inside of the box is that of the solution of the level set equation, within an explicit bound.", "quantifier": "all grids of at least two by two nodes, all finite slopes and grid steps between 2^-200 and 2^200, all nodes; for the step all grids with exact coordinates, all data, velocities tracked by the double velocity functions and all smooth solutions", "why_tests_cant": "a test sees the rounding of a few data sets; the bound holds for every combination of slopes, including those where differences cancel or underflow", "anchors": ["src/reference/AdvectionPointCalcs.h: update_mixed_derivatives", "src/reference/GALS_Advection.cpp: main"]}
