# Design: a Rocq model of gradient-augmented-levelset-cuda

## Conventions of the model

* **Outcomes.** C++ functions that can go wrong return `outcome A := Ok a | UB r | Exit c | Throw`.
  `UB` carries the reason (signed overflow, access outside an array, float-to-int conversion of an
  unrepresentable value, data race, read of uninitialised memory, division by zero). `Exit` is a
  call of `exit`, `Throw` an uncaught exception. Nothing is totalised silently.
* **Integers.** `int` values are `Z`. Every arithmetic operation of `Grid::index`, of the constructor and of
  `generate` goes through a checked 32-bit operation. Two semantics are provided: `Trap`
  (the C++ standard: signed overflow is `UB`) and `Wrap` (two's complement, what the
  compilers used in practice generate). Results that need `Wrap` say so.
  `size_t` is `Z` modulo 2^64.
* **Storage.** `std::vector<T>` is a `list T`; `v[i]` with `i >= size` is `UB OutOfBounds`.
  Arrays refer to their grid at access time, as the code does (`m_grid` is a reference).
* **Scalars.** Model functions are generic in a record of scalar operations (`Num`).
  Instances: `R` (most theorems), `Q` (computable witnesses), `NumB64` (IEEE-754 binary64, built on
  Flocq's `binary_float 53 1024`). A theorem over `R` is a statement about the formulas in exact
  arithmetic; theorems that hold for every `Num` instance say nothing about arithmetic and hold for
  binary64 too; C45, C52, C53 and C101-C104 are statements about binary64 itself.
* **Loops** are monadic folds over the index lists, in the source order.
* **Templates**: the dimension is a value `dim : nat` in {1,2,3}; template dispatch classes
  (`Interpolate`, `Gradient`, `Temporal`) are plain calls.

* **Memory of the reference programs** (`ModelRefMem.v`). A memory maps locations (array, i, j) to
  nothing, uninitialised, a double or an unsigned. A loop body is a small program (`prog`) of reads,
  writes and returns. The serial loop runs the bodies in order. A parallel loop (OpenMP `for`, CUDA
  kernel) runs them in any interleaving of single accesses; two unordered accesses of one location,
  one of them a write, are a data race.
* **CUDA** (`ModelRefCuda.v`). Two memories, `cudaMemcpy` as copies of byte ranges, a kernel launch
  with its grid of blocks, launches of the default stream in order; a launch with more than 1024 threads per block
  or an empty grid runs nothing.
* **MPI** (`ModelRefMpi.v`, `ProofsRefPair.v`). Two processes with a memory each, FIFO channels of
  any capacity (a send blocks when the channel is full, so buffered and synchronous sends are both
  covered); all interleavings.
* **Shared files** (`ModelRefMpiFiles.v`). Names, the files they stand for, open files of each process, unlink and append
  as in POSIX; every interleaving of single operations, every division of the text into writes.
* **Output files** (`ModelRefPrint.v`). Characters, decimal conversion included.

## Layout (`rocq/theories`)

`Model*.v` definitions only, each citing `/repo` file and lines. `Spec*.v` the independent
vocabulary (polynomials, padded boxes, sampled fields, tables of words). `Proofs*.v` lemmas.
`Properties*.v` contain only the theorems closed by `exact`, non-vacuity `Example`s and
`Print Assumptions`.

| area | model | properties |
|------|-------|-----------|
| vectors, grid, arrays | `ModelVec ModelGrid ModelArray` | `PropertiesGrid` |
| interpolation | `ModelInterp` | `PropertiesInterp PropertiesPatch PropertiesLimited` |
| gradient schemes | `ModelGradient` | `PropertiesGradient` |
| time stepping | `ModelTemporal` | `PropertiesTemporal PropertiesPde PropertiesPdeRound PropertiesTurn` |
| several steps in a row | `ModelRun` | `PropertiesRun PropertiesStability PropertiesSensitive` |
| analytical fields | `ModelAnalytic` | `PropertiesAnalytic` |
| application | `ModelApp` | `PropertiesApp PropertiesIteration` |
| parser, output, files | `ModelParser ModelOutput ModelShow ModelFiles` | `PropertiesIO PropertiesShow PropertiesFileNames PropertiesParserErrors` |
| input objects, failed parses | `ModelOwner` | `PropertiesOwner` |
| reference formulas | `ModelRefMath` | `PropertiesRef PropertiesRefOrder PropertiesRefStep PropertiesRefSolve PropertiesRefGrad PropertiesRefGradThird PropertiesRefExist PropertiesRefReverse PropertiesRefFirst PropertiesRefWallGrad PropertiesRefRound PropertiesRefTraceRound PropertiesRefStepRound PropertiesRefSuperRound PropertiesRefMixed PropertiesRefMixedRound` |
| serial and OpenMP programs | `ModelRefMem ModelRef` | `PropertiesRefRun` |
| interpolation error | (`ModelInterp`) | `PropertiesAccuracy` |
| double arithmetic | (`NumB64`, `ModelGrid`, `ModelInterp`, `ModelTemporal`, `ModelGradient`) | `PropertiesB64 PropertiesRound PropertiesRoundGrad PropertiesRoundField PropertiesRoundRun` |
| first serial program | `ModelRefOld` | `PropertiesRefOld` |
| CUDA program | `ModelRefCuda` | `PropertiesRefCuda` |
| MPI program | `ModelRefMpi` | `PropertiesRefMpi` |
| MPI program, any number of processes | `ModelRefMpiN` | `PropertiesRefMpiN` |
| MPI+OpenMP program, any number of processes | `ModelRefHybN` | `PropertiesRefHybN` |
| shared output files of the MPI program | `ModelRefMpiFiles` | `PropertiesRefMpiFiles` |
| OpenMP and MPI+OpenMP programs, command line | `ModelRefOmp` | `PropertiesRefOmp` |
| memory of the reference programs | `ModelRefHeap` | `PropertiesRefHeap` |
| reference output, Readfiles.m | `ModelRefPrint` | `PropertiesRefPrint` |
| plots and error of Readfiles.m | `ModelReadfiles` | `PropertiesReadfiles` |
| Visualize.m | `ModelVisualize` | `PropertiesVisualize` |

`tools/make_manifest.py` writes MANIFEST.json, `tools/mutate.py` applies wrong edits to a scratch
copy and lists the theorems that fail, `tools/log_mutations.py` writes seeded/LOG.jsonl.

## Plan per property

| id | model | proof idea |
|----|-------|-----------|
| C01 | `index`, `generate` resize | mixed-radix numeration: bijection between box and [0,size) |
| C02 | array get/set on lists | from C01 and list update lemmas; induction over histories |
| C03 | `generate` loop | loop invariant; expected false when padding <> 1: characterise offset, refute |
| C04 | `baseNodeId` | floor characterisation over R |
| C05,C06 | constructors, assignment | list `repeat`, values are immutable |
| C07,C08 | `generate`, `index` | arithmetic; C08 expected false, refute |
| C09 | checked `index` | interval reasoning on each intermediate; refute beyond |
| C10 | `index (baseNodeId x)` under `Trap` | expected UB in 1-D and 2-D; refute |
| C11 | `setPadding` | refute, with the harmless cases |
| C12 | `Vec3::min` | case analysis; expected false on ties; exact characterisation |
| C13-C15 | small vectors, macros | algebra; macro expansion modelled literally as statement lists |
| C16-C18 | Hermite 1/2/3-D transcribed literally | `field`/`ring` per coefficient by linearity |
| C19-C21 | same | evaluation at eta = 0, 1; Coquelicot derivatives |
| C22 | limiter | case analysis |
| C23,C24 | interpolate on arrays | index bounds from floor bounds; generic loop lemma |
| C25,C26 | linear interpolation, hull | convexity, nonnegativity of Bernstein basis |
| C27-C30 | gradient schemes | generic loop lemma, polynomial identities; C29, C30 expected false |
| C31-C35 | temporal schemes | composition of previous results; C31 expected false (velocity[0] only) |
| C36-C40 | analytical fields | norms; C37, C38, C40 expected false |
| C41-C45 | application loop | fuelled loop with termination proof; Flocq monotonicity for C45 |
| C46-C49 | parser, output, files | abstract YAML document, list of lines, file-system map |
| C50,C51 | reference Hermite formulas | equality with the library model cell by cell; `field` |
| C52,C53 | `upper/lower_bound` on the node list | characterisation of `lower_bound` on sorted lists; binary64 counterexamples by computation |
| C54,C55 | vortex velocity, circle | trigonometric identities, Coquelicot derivatives |
| C56 | RK3, Euler back-tracing | algebra, Taylor remainder |
| C57 | mixed derivative loops | a loop invariant per array |
| C58,C59 | parallel loops | accesses of different nodes are disjoint, hence every interleaving equals the serial loop; for C59 a race and a wrong interleaving |
| C60,C87-C89 | CUDA launches, steps, whole program | threads to nodes is injective; induction over the steps; failing executions by symbolic execution of the first step |
| C61,C90 | MPI program | invariant on two processes and channels, deadlock freedom, all interleavings |
| C62,C63,C80-C86 | serial and OpenMP programs | the step as a function on fields on the nodes (`next`), induction over the steps |
| C64,C65 | interpolation | exact value for every padding; exact result of limiting |
| C66,C67 | gradient schemes | Taylor-Lagrange with explicit constants |
| C68-C73 | what the faulty schemes compute instead | generic loop lemma |
| C74-C77 | application, files | fuelled loop; case analysis |
| C78,C79,C91 | gradient transport | algebra; explicit deviation from Heun's method |
| C92,C93 | output files, Readfiles.m | decimal conversion and parsing are inverse up to half a unit of the last place; block structure by induction |
| C94-C97 | first serial program | the node-in-cell loop as "first cell of use"; neighbouring cells agree on the common edge, so the choice does not matter |
| C98 | interpolation error | Rolle's theorem four times gives the 1-D error h^4/384 max f'''' (slope h^3/24); stability of the 1-D formula carries it through the tensor product |
| C99 | error of a semi-Lagrangian step | C71 and C98, Taylor expansion of the particle path for the foot, mean value theorem along the axes |
| C100 | error of linear interpolation | Rolle's theorem twice on the error minus a multiple of (t-a)(t-b) |
| C101 | rounding of node positions | relative error 2^-53 per operation (Flocq), added up through dx, the origin and the node |
| C102 | base node of a node in double | C101 plus the error of the computed lattice coordinate, below 1/2 on a resolved grid; refuted for "the cell itself" by computation |
| C103 | interpolation in double is defined | the computed lattice coordinate stays within 1/16 of the exact one, so its floor is a stored cell; interpolation reads only that cell's corners |
| C104 | step in double is defined | C101 and C103 for the feet; refuted for a whole cell by computation |
| C105 | OpenMP program, k threads | every interleaving of every loop refines the serial loop; race exhibited for the mixed derivatives |
| C106 | MPI+OpenMP program | simulation: processes with several possible outcomes refine the MPI program of C90 |
| C107 | thread count on the command line | strtol on decimal strings, by induction on the digits |
| C108 | Visualize.m | lines and columns of the printed array (C48) scanned by induction; index arithmetic of reshape |
| C112 | MPI+OpenMP, any number of processes | executions of the pair of C106 as an invariant; further senders by simulation of the serial ones |
| C111 | files of the MPI and MPI+OpenMP programs | which writes reach the file created after the last removal depends only on each process's own operations; all interleavings |
| C110 | interpolation | the weighted sums of the code regrouped into nested Bezier curves; derivative with Coquelicot |
| C113 | limited interpolation | each of the 16 or 64 control values of the code equals one of five constructions from edges; sums regrouped as in C110 |
| C114 | limited interpolation, continuity | control values of shared faces compared index by index; the mismatch gives the jump |
| C115 | rounding error of interpolation | an error calculus (value, bound, error in units of a scale) pushed through the formulas of each dimension; the base node computed in double may be the neighbour, so both results are compared with the exact one at a point shared by the two cells |
| C116 | rounding error of a semi-Lagrangian step | error of the foot point within the tolerance of C115, then the matrix of the gradient update |
| C117 | a step at rest in double | C116 against the exact step at rest; the loss of a small slope by evaluation |
| C118 | several semi-Lagrangian steps | invariant: inside the layers that the ghost cells can have reached the fields are samples of the moved polynomial |
| C119 | stability, 1-D | bending energy: cutting a cubic segment splits its energy (Pythagoras), and a cubic has the least energy between its ends, so sampling the shifted piecewise cubic cannot raise it |
| C120 | convergence, 1-D | the nodal error obeys the loop with an interpolation error added in each step; C119 for the perturbed loop bounds its energy, chord and slope estimates give the pointwise bound |
| C121 | one iteration of the program | with two ghost layers gradient, copies and step succeed; the case at rest by evaluation over the rationals |
| C122 | rounding error of the gradient schemes | the error rules of C115 applied to the two formulas; 1/dx is within 5 units of the last place of 1/h wherever the box lies |
| C123 | total error of the gradients in double | C122 plus the error of the data through the exact quotient plus the Taylor bounds of C66 and C67 |
| C124 | circle level set in double | relative error of the squares and sums, a lemma on square roots of perturbed numbers, correct rounding of sqrt; total version adds C101 through the triangle inequality |
| C125 | circular velocity in double | Machin's series for pi summed in rationals fixes the constant to the nearest double; then three roundings per component |
| C126 | rounding error of several 1-D steps | one step differs from the exact step by the error of C115, on the cells the ghost layers have not reached; the drift is split into a part measured in the energy of C119 and a local part, so it grows like N^2 rather than exponentially |
| C127 | total error of several 1-D steps in double | C126 with the convergence theorem C120 for the exact run, which also supplies the bound on the sizes |
| C128 | printed doubles | the default format of std::ostream (%g, six digits) as an integer computation on the binary fraction; reading it back is shown to be Flocq's rounding to radix 10 with six digits, from which error, order, exactness and collisions follow |
| C129 | errors in the data are amplified by at most a constant | the unlimited interpolant is a sum of products of one-dimensional weights (ProofsInterpMore); the absolute weights of one axis add up to at most 5/4, those of a derivative to at most 4, hence 5/4 per axis for values and 4 for the axis of a derivative; one semi-Lagrangian step adds the matrix of the displaced frame |
| C130 | total error of interpolation and of one step in double, any dimension | C98/C99 (error of the method on exact data) + C129 (error of the data) + the rounding bounds in double, by the triangle inequality; the example rounds a product of sines to multiples of 2^-40 |
| C131 | order of the back-trace of the reference code | third-order Taylor expansions of the trajectory at the end of the step, the error of Simpson's rule, the mean value theorem in the plane for the velocity at the two inner stages; the dt^3 terms of the two stages cancel |
| C132 | one bound for all trajectories of a smooth velocity, and the vortex | chain rule in (x, y, s) from total differentiability, Leibniz' rule for the derivatives along the trajectory, then C131; products of waves for the vortex |
| C133 | error of one step of the reference programs | C80 (what the step stores) + the error of the bicubic interpolant with inexact corner data (one axis after the other, ProofsAccuracy) + C131/C132 for the position, mean value theorem for the level set |
| C134 | one step of the reference programs against the level set equation | existence and uniqueness of trajectories by Picard iteration (Lipschitz velocity, Coquelicot integrals), solutions of the equation are constant along trajectories, then C132 (velocities scaled by V and K) and C133; trajectories of the vortex stay inside the unit square because they leave the walls slowly |
| C135 | objects that hold the input | records on a heap, every `delete` checked; refinement to a program whose variables hold values (invariant: the records are exactly those of the live objects), for all programs that copy nothing; copies and assignments: refuted after every such history |
| C136 | what a parse has stored, also when it fails | one assignment after the other on the heap of C135; equal to filling a list of entries until one cannot be read; agreement with the record parser of C46; not atomic: refuted |
| C137 | memory held by a run of the reference programs | requests and releases of each step under an arbitrary limit; exact number of steps that fit, by induction |
| C138 | what Readfiles.m plots and reports | C93 (what it reads) + the convexity of linspace + the largest entry of two tables |
| C139 | the gradient after one step against the traced function | slope error of the Hermite interpolant in one cell with data errors (the one-dimensional slope and value estimates combined), a function with bounded derivatives is totally differentiable inside the box, and the scheme is the chain rule (C78): the new gradient minus that of the traced function is the slope error times the derivatives of the trace |
| C140 | the gradient after one step against the solution of the level set equation | two neighbouring trajectories compared to first order in dt (mean values, sup of the distance), limit of difference quotients of the solution, derivatives of the RK3 trace to first order in dt, then C139 and C134; the time error is of order two for both time schemes, sharp for Euler only |
| C141 | with SuperConsistent and RK3 the time error of the gradient is of order four | the linearised flow along a trajectory (existence by Picard, the chain rule for solutions of the level set equation), bounds for its four derivatives, the stages of RK3 and of SuperConsistentScheme compared with it to the order at which their errors cancel in the weights 1, 4, 1, then as C140 |
| C142 | the level set equation the programs approximate has exactly one solution for every differentiable start; one step goes to it | trajectories (Picard, for all times) form a flow; it depends differentiably on the start over short times (the variation equations of C141), hence over all times by composition and backwards by mirroring time; the start carried along the flow is differentiable in space and time and solves the equation; uniqueness by constancy along trajectories |
| C143 | after a full period of the swirling flow the solution is back at its start, so the error shown by Readfiles.m is at most the error of the run | a trajectory and its mirror image meet at half the period and are equal; with C138 |
| C144 | one step from the level set the program sets up itself, with numbers in the bounds | all partial derivatives up to order four of the initial level set are products of derivatives of exp(-z^2), bounded by 1, 1, 2, 12, 12; then C134, C141 and C142 |
| C145 | what a run keeps on the walls of the swirling flow, compared with the exact solution | C84 for the run; the points of the wall do not move, so the linearised flow along them is solved in closed form over short times and chained over all times. The derivative across the wall is refuted |
| C146 | one step of the library in the plane against the solution of the level set equation, values and gradient | C99 relative to the foot of the straight path; the foot is within dt^2 of the start of the trajectory; the solution is constant along it (C134) and its slopes follow the linearised flow (C140) |
| C147 | one step in the library's own circular velocity against the exact rotation | C38, C72 and C99 with the circular path, whose acceleration is omega^2 r; the stored velocity gradient is zero, so the gradient is not turned: refuted with the exact size of the error |
| C148 | C146 in double arithmetic: one step with rounded data and rounded velocity against the level set equation | C130 (total error relative to the straight foot) and, for an inexact velocity, the argument of C146 at the perturbed foot |
| C149 | rounding error of the Hermite interpolation of the reference programs (value and both derivatives) in double | the error calculus of ProofsRound with scales dx, dy, M; a new rule for division; the sum of the sixteen terms by induction over the list |
| C150 | rounding error of the backward trace of the reference programs (Euler and RK3) in double, for a velocity whose double version is accurate to eps | the same calculus with eps as unit, scales X, V, dt and V dt; each stage multiplies the position error by at most twice c |
| C151 | one step and a whole run of the reference program in double on a grid whose coordinates are exact in double | every cell found exists (comparisons are exact on finite doubles), so steps complete for any velocity; value = C149 + C150 + the real error bound of the step |
| C152 | the SuperConsistent gradient update of the reference program in double, and the gradient after one step | the update is followed operation by operation with relative errors; the slopes and the position carry the errors of C149 and C150 into the argument of C140 |
| C153 | the accuracy of the mixed-derivative update of the reference programs, and of the mixed derivative after one step, in real numbers | Taylor expansion of the central differences and of the corner combination bounds the error at inner nodes, edges and corners; the gradient errors of C140 and C141 enter as errors of the slopes |
| C154 | the mixed-derivative update of the reference program in double, and the mixed derivative after one step | the differences, quotients and the corner combination are followed operation by operation with errors relative to the largest slope over the smallest grid step; C152 and C153 give the step theorem |
| C109 | MPI, any number of processes | what a sender will still do is invariant under every move; the further senders do not touch the pair of C90 |

## Findings

A theorem with the suffix `_refuted` shows that the modelled code violates the property. The suffix
`_partial` marks what does hold. The main ones:

* **Grid.** Node positions ignore the padding (C03). `totalCells` counts unused axes (C07). Cells of
  unused axes share storage (C08). Index arithmetic overflows in 1-D and 2-D for every position lookup, because the
  unused axes carry INT_MAX (C10). `setPadding` after `generate` moves all cells (C11).
* **Vec3.** `min` returns the wrong component when the first two are equal (C12), so the automatic time
  step can break the CFL bound (C42). Building from a `std::vector` exits in release builds (C15).
* **Macros.** The unbraced check macro makes release builds exit: circular velocity (C40), every
  level set section of an input file (C75).
* **Interpolation.** For padding p positions are off by p-1 cells (C64). Limiting replaces
  every quadratic by its chord (C65). In 3-D the limited value jumps across every face between neighbours in y,
  already for data of x^2: the two cells build two control values of that face in different ways (C114). In double,
  a step at rest can lose the whole gradient, because the slope is recovered from differences of control values (C117).
* **Gradient.** The third-order scheme needs two ghost layers and the application allocates one, so
  the application reads out of bounds in its first iteration (C29, C44, C68). Vector gradients differentiate
  along the wrong axis (C30, C69).
* **Time stepping.** Forward Euler ignores the gradient of phi (C31, C70). The start time is ignored (C43). A non-positive
  time step never ends (C74). Two ghost layers, which the gradient of the program would need, make even a motionless iteration change the level set (C121). In binary64 time stands still at 2^53 times the power of two at or above dt (C45).
  Over several steps, the ghost cells are never refilled, so wrong values enter from the boundary by one cell per step, and
  the mixed derivatives are never transported, so even x^2 y is moved wrongly in the middle of the grid (C118).
* **Analytical fields.** The circular velocity turns about the mirrored centre (C37, C72). Its gradient
  is written to two ghost cells (C38, C73), so a step in this field carries the gradient of the level set along without turning it: an error of first order in the time step (C147).
* **Rounding.** In double the base node of a node can be the cell below it: with 5 cells on (-1,1) the first cell
  has base node -1 (C102). A step that moves by exactly one cell, allowed in exact arithmetic, reads out of
  bounds there (C104).
* **Input.** Lists with fewer than three entries are read out of bounds (C47).
* **Files.** The root directory is stored and never used (C76). Failures are silent (C77).
* **Reference formulas.** `hp1D` scales end slopes by 1/dx (C51). The Heun update of psi mixes predicted and
  corrected values (C79). Beyond one side of the box its first stage uses the old value of the node (C91).
* **Reference cell search.** A position outside on both axes gets no cell (C52). With 50 nodes on
  [-1,1] rounding yields a cell that does not exist (C52, C53).
* **Serial program.** The last row and column are traced to the origin (C62, C86). Two nodes on an axis read out of
  bounds (C81). A printing interval of 0 divides by zero (C63).
* **OpenMP.** The mixed derivative loop shares six temporaries: a data race with wrong results (C59).
* **CUDA.** Positions past a corner leave the cell uninitialised, which happens in the first step of
  the shipped problem (C88). One corner uses a wrong node (C57). The printed psiy is half
  old, psixy never updated (C89). Tiles that do not divide the grid leave nodes out (C60).
* **MPI.** Doubles are sent as MPI_FLOAT, so half of each buffer is lost (C61). Odd column counts write past a
  buffer (C90). With MPI_DOUBLE and an even count the program is right (C90). The MPI+OpenMP program has the
  same faults, for every number of threads (C106). One process is ended by MPI in the first step; with three or more
  the messages of the further ones are never received, so the program hangs unless MPI stores five messages per step (C109, with threads C112). All
  processes remove and write the same files: normally details.txt and every first block appear twice, and Readfiles.m cannot
  read such a details.txt; with three or more processes all results can be removed after they were written (C111).
* **OpenMP.** With two threads or more the program has a data race in its first step (C105), with MPI too
  (C106). Started without an argument it reads through a null pointer; an argument that is not a positive
  number is not reported (C107).
* **First serial program.** A node traced back farther than one cell keeps its data, silently (C96). Positions
  exactly on a limit count as inside; in the later programs as outside. So on the walls of the shipped flow the
  first program transports psix and the later ones freeze it (C95). The unused node count overflows from
  2^31 nodes on (C94).
* **Readfiles.m.** The block count is rounded to the nearest integer, so the script can ask for a
  block that does not exist (C93). The error it reports compares absolute values: it is zero when the level set has changed its
  sign everywhere, and it leaves out the steps after the last printed state (C138).
* **InputFields.** The class deletes five records in its destructor but keeps the copy operations of the compiler: a copy
  shares the records, destroying both copies deletes them twice, and assigning loses the records of the target (C135). A parse
  that throws leaves every value before the failing one stored; the old values are gone (C136).
* **Memory.** Each step of the MPI programs keeps five matrices for ever; the CUDA program keeps two grids on the host for
  every printed state; no failed request is noticed (C137).
* **Gradient on the walls.** In the swirling flow on the unit square the reference programs keep psix and psiy at the wall nodes for
  ever (C84): they treat a point on the wall as outside and take the gradient over. The exact level set keeps its value and the derivative along the
  wall, but not the derivative across it: that one changes by 2 Tp sin(pi t/Tp) sin^2(pi y) times the other one. With the given settings
  psix is off by more than 0.5 half way through the period. After the full period the two agree again, so the error shown by Readfiles.m cannot reveal it (C145).
* **Output precision.** The files hold six significant digits. Far from the origin neighbouring nodes are printed with the
  same coordinates: with 5 cells on (100000, 100001) the first two cells both read 100000 (C128).
* **Visualize.m.** `reshape` is called with nx and ny in the wrong order, so unless nx = ny the surface joins nodes
  that are not neighbours (C108). A file with several layers stops the script, and nothing is drawn for a one-dimensional grid. The application writes no phi file.

## Modelled and not modelled

Modelled function by function: `include/gals` and `src/cpu` (grid, arrays, vectors, matrices, both
interpolations in all dimensions, gradient and temporal schemes, analytical fields, parser on document trees,
output operators, FileUtils except `removeDirectory`), `applications/advection/main.cc`,
`src/reference` (first and later serial, OpenMP, CUDA, MPI, MPI+OpenMP programs, output, Readfiles.m), `tools/octave/Visualize.m`.

The version of yaml-cpp is not recorded in the repository, and versions differ on an empty value read as text
(an exception, or the text "null"); this is the parameter `null_text`, so the theorems hold for both.

Not modelled: YAML syntax and number parsing of yaml-cpp, the file-system library behind FileUtils (assumed to
be a tree of files and directories), logging, how
quiver and contour draw in Readfiles.m, weak memory (races are reported as undefined, race-free executions are sequentially consistent), running out of
memory (except for the requests of C137).

## Agreement of the model with the unit tests

`ModelTests.v` transcribes the tests of `/repo/tests` and `PropertiesTests.v` shows by computation in binary64 that the
model passes them. The Hermite tests compare mean errors with reference values that were "obtained from matlab", to
1e-12; the model reproduces them in 1-D for 11, 21, 41 and 81 cells and in 2-D for 11 and 21. This is evidence that
the model is the program, not a claim of MANIFEST.json. Left out: integer vectors, `VecN`, `removeDirectory`, the
larger 2-D cases, and the 3-D Hermite test, which expects nothing.

## Trusted base

* The Coq 8.16.1 kernel.
* The axioms printed by `Print Assumptions`, all of the standard library:
  `ClassicalDedekindReals.sig_forall_dec`, `ClassicalDedekindReals.sig_not_dec` and
  `FunctionalExtensionality.functional_extensionality_dep` (real numbers), `Classical_Prop.classic` (where Coquelicot
  or Flocq use it, and in C112 for the existence of an execution). Theorems about integers, storage, files and parsing alone print
  "Closed under the global context".
* The reading of the C++, CUDA and Octave text, as cited at each definition.
