# Formal model of DNDSR in Rocq (Coq 8.16.1): design

The code in `/repo` is modelled function by function as total, computable Gallina
functions, and the properties of `properties.jsonl` are proved about those
functions.  The C++ is read as text; nothing is extracted from it mechanically
except the element tables, which are transcribed by a script (see C42, C43).

## Layout of `rocq/theories`

For each area there are up to four files.

| suffix | content |
|---|---|
| `XModel.v` | the model only.  Every definition cites the file and lines it models and states simplifications. |
| `XSpec.v`  | small independent specification, stated without the model's helpers (omitted when the standard library already has the notion). |
| `XProofs.v`| lemmas. |
| `XProps.v` | the property theorems `Cnn_...`, each `exact`-ing a lemma, followed by `Print Assumptions`, with an `Example` showing that a concrete case meets the hypotheses. |

Names: `Cnn_*` is the theorem for property `Cnn`.  `*_partial` means that the
theorem proves part of the property (the comment says what is missing).
`*_refuted` is a proved counterexample: the faithful model violates the stated
property on a concrete input.

## Modelling conventions

* **Outcomes.**  An assertion failure (`DNDS_assert*`, exceptions) and undefined
  behaviour (out-of-bounds access, null dereference, signed overflow) are
  outcomes distinct from a returned value: models of partial functions return
  `res A := Ok a | Abort | UB`.  Assertions are modelled as enabled unless the
  comment says otherwise.
* **Integers.**  `index`/`rowsize`/`MPI_int` values are `Z`; positions in a C++
  container that the code has already established as valid may be `nat`.
  Overflow is modelled where the code checks it or where a property speaks of
  it; elsewhere a stated hypothesis bounds the values.
* **Reals.**  `real` is modelled by exact arithmetic: `Q`, `R` or an arbitrary
  ring/field.  Floating-point rounding, NaN and infinities are **not** modelled.
  Results about real-valued code are therefore about the formulas, not about
  their rounded evaluation.
* **MPI.**  A program over `P` ranks is modelled as a function of the vector of
  all ranks' local states.  Collectives (`Bcast`, `Allreduce`, `Scan`,
  `Alltoall`, `Alltoallv`) are modelled by their MPI-standard meaning on that
  vector.  Point-to-point persistent requests are modelled by a multiset of
  messages that can complete in any order (a list quantified up to
  permutation).  Deadlock inside the MPI library is not modelled.
* **Memory.**  Shared pointers whose sharing is observable (`_pRowStart`,
  `_pRowSizes`, `pth_2_ssp`, ...) are modelled with an explicit heap; elsewhere
  values are copied.
* **Templates.**  Compile-time parameters (layout, dimension) become ordinary
  arguments.

## Trusted base

* Coq's kernel (8.16.1) and `vm_compute`.
* What `Print Assumptions` lists beneath each theorem.  Development over `nat`, `Z`, `Q`, lists is
  axiom-free ("Closed under the global context").  Development over `R` uses the axioms of
  the standard library's real numbers (`ClassicalDedekindReals.sig_forall_dec`,
  `ClassicalDedekindReals.sig_not_dec`,
  `FunctionalExtensionality.functional_extensionality_dep`), some of it also
  `Classical_Prop.classic`, and no others.
* The correspondence between the C++ text and the Gallina definitions, which is
  by reading.  Each definition cites its source so that it can be checked.

## Modelled

Simplifications are stated at the head of each model and at its definitions.

| model | code |
|---|---|
| `DNDS/ArrayModel`, `SerialModel` | `Array.hpp`: five layouts, resize, compress, copies, swap; writing and reading |
| `DNDS/PairModel`, `MatrixModel`, `BatchModel` | `ArrayPair.hpp`, `ArrayDerived/ArrayEigen*.hpp` |
| `DNDS/IndexMappingModel` | `IndexMapping.hpp` |
| `DNDS/ExchangeModel`, `RequestModel` | `ArrayTransformer.hpp` 270-960: types, ghost exchange, in-situ packing, persistent requests |
| `DNDS/JsonModel`, `SharedModel`, `H5Model` | `SerializerJSON.*`; `SerializerH5.cpp` for distributed vectors |
| `DNDS/DefinesModel`, `PoolModel`, `TimerModel` | helpers of `Defines.hpp`, `ObjectPool.hpp`, `Profiling.*` |
| `Geom/ElemModel`, `ShapeTable`, `ShapeModel` | `Elements.hpp`: tables and shape functions |
| `Geom/QuadratureModel`, `PatchModel` | `Quadrature.hpp` |
| `Geom/BaseFnModel`, `DiffTensorModel` | `BaseFunction.hpp`, `DiffTensors.hpp` |
| `Geom/BoundaryModel`, `PeriodicModel` | `BoundaryCondition.*`, `PeriodicInfo.*` |
| `Geom/AdjModel`, `PartModel`, `NodeCellModel`, `FaceModel`, `OrderModel`, `ReorderModel` | `Mesh.cpp`: adjacency conversion, redistribution, inversion, cell and boundary relations, faces, order, local reordering |
| `Geom/DedupModel` | `Mesh_Serial_BuildCell2Cell.cpp`: merging of periodic nodes after matching |
| `Geom/RcmModel` | `CorrectRCM.hpp`, part of `SerialAdjReordering.hpp` |
| `Solver/ScalarModel`, `LinearModel`, `DirectModel`, `LUModel`, `OdeModel`, `OdePP`, `RkModel` | `Scalar.hpp`, `Linear.hpp`, `Direct.hpp`, `ODE.hpp` |
| `Euler/GasModel`, `CompressModel`, `RiemannModel` | `Gas.hpp`: states, fluxes, eigenvectors, compression ratios, Riemann solvers |
| `Euler/PositiveModel` | `EulerEvaluator.hpp`, `EulerEvaluator.hxx`: the positivity limiters of increments, mean values and reconstructions, per cell and over ranks |
| `Euler/ImplicitModel` | `EulerEvaluator.hxx`, `EulerSolver.hxx`: matrix product, triangular, Gauss-Seidel and Jacobi sweeps, assembly and solution with the block LU, on one rank and over all ranks; the face Jacobian is a parameter |
| `Euler/JacobianModel` | `EulerEvaluator.hpp`, `EulerEvaluator.hxx`: face Jacobian times vector (single speed, Roe, central), its matrix, the written-out 3D matrix, diagonal and off-diagonal parts of a row, periodic turns; boundary and source contributions to the diagonal are not modelled |
| `Euler/RhsModel` | `EulerEvaluator_EvaluateRHS.hxx` from the fluxes at the integration points on |
| `CFV/LimiterModel` | `Limiters.hpp` |
| `CFV/RecModel`, `RecDiffModel` | variational reconstruction: base values, face functional, matrices, iteration, linear problems |
| `Euler/BndModel` | `EulerEvaluator_EvaluateDt.hxx` 1476-1999 `generateBoundaryValue`, `EulerEvaluator.hpp` 764-825, with the macros of `Experimentals.hpp`; the built-in test-case states (1613-1855) are passed in |
| `Geom/RotationModel` | `Geometric.hpp` 65-175: face normal, local base, rotations, cross products |
| `Euler/HandlerModel` | `EulerBC.hpp` 45-318: BoundaryHandler, JSON reading and writing, queries |
| `Euler/DriverModel` | `CLDriver.hpp`; `CLDriverGetIntegrationUpdate` and the wall sums of `EulerEvaluator_EvaluateRHS.hxx` 530-548. Reductions over ranks are the sums over all faces; logging left out. |
| `Euler/RecorderModel` | `EulerBC.hpp` 318-565 without `OutputPicker` and the CSV output; `EulerEvaluator.hxx` 1951-1971; `Grid.hpp`. |
| `Geom/ElevModel` | `Mesh_Elevation.cpp` 22-437 and 584-611 over global numbers; ghost layers and pulls are C01 - C05. The gathering of normals and the solution for inner nodes (613-1250) are not modelled. |
| `Geom/BisectModel` | `Mesh_Elevation.cpp` 439-582 and `Elements.hpp` 2503-2534; neighbours are rebuilt afterwards (C35 - C37). |
| `Geom/FoamModel` | `src/Geom/OpenFOAMMesh.hpp` 309-489, `Mesh_Serial_ReadFromCGNS.cpp` 535-630. The text of the files is not parsed; coordinates are copied as text. |
| `Geom/VtkModel` | `src/Geom/Mesh_Serial_BuildCell2Cell.cpp` 480-664, `src/Geom/Elements.hpp` 2537-2640, `src/Geom/Mesh_Plts.cpp` 1228-1466. HDF5 attributes, names and the 2-D padding of coordinates are not modelled; ghost exchange by its meaning. |
| `Euler/TimeLoopModel` | src/Euler/EulerSolver.hxx 1150-1300, 1575-1715; EulerSolver_Init.hxx 718-1000; EulerSolver.hpp 728-757; EulerEvaluator.hxx 1113-1119. Left out: console, timers, conversion of averages between conservative and primitive variables, rounding, inner iterations. |
| `Geom/FoamTextModel` | src/Geom/OpenFOAMMesh.hpp 11-324, with `peek`, `get`, `getline` and `>>` of integers from the C++ library. Reading of floating-point numbers is a parameter. Left out: the order of the patches in the map, the printing of the conditions. |
| `Euler/InnerModel` | src/Euler/EulerSolver_Init.hxx 498-716; EulerSolver.hxx 1171; the loops around `fstop` in src/Solver/ODE.hpp 74-90, 200-252, 344-380, 605-641, 968-1048. Left out: what the lines and files contain, timers, the other residuals, the integration of the lift driver, rounding. |
| `Euler/LogModel` | src/DNDS/CsvLog.hpp 11-76; src/Euler/EulerSolver.hpp 877-925; EulerSolver_Init.hxx 614-652, 806-843; EulerEvaluator.hpp 929-954. Left out: opening of files, the console, how a `double` is printed, processes other than 0. |
| `Euler/ConfigModel` | src/Euler/EulerSolver.hpp 546-579, 618-659; src/DNDS/JsonUtil.hpp 64-83; SingleBlockApp.hpp 71-73, 94-95; `merge_patch`, `json_pointer`, `operator[]` and `at` of nlohmann's JSON library as documented. Left out: parsing of texts, conversion of values to types, the boundary handler, printing of the settings. |
| `Euler/RestartModel` | `EulerSolver::PrintRestart`, `ReadRestart`, `ReadRestartOtherSolver` with the names, the disk and the order of acts; the contents of files are values, and the writing of HDF5 by all ranks is one sequence |

## Not modelled

Floating-point rounding; threads (OpenMP), except for the assembly of the
right-hand side; the MPI library's internals and deadlock inside it; the file
formats themselves (HDF5, JSON text, CGNS, zlib/base64); Metis/ParMetis/Boost
algorithms; Eigen's kernels; memory exhaustion; the application drivers and
output writers; turbulence and viscous models; boundary states; mesh elevation;
second order Green-Gauss and least squares reconstruction.

## Per-property plan

| id | model | proof |
|---|---|---|
| C01 | `GlobalOffsetsMapping` over `Z` offset lists; `lower_bound(less_equal)` as first offset greater than the query | induction on rank lengths; spec = flat enumeration of (rank, local) |
| C02 | pull constructor: sort, unique, count by owner, prefix sums; the five search functions | sortedness invariants, uniqueness of lower bound; spec = membership in main range or request list |
| C03 | whole-world construction: all ranks' constructors with `Alltoall`/`Alltoallv` | characterise ghost lists by owner as filters of the request list; duality by transposition |
| C04 | messages as (source slots, destination slots) pairs; execution over any permutation of the message list | destinations disjoint, so execution is order-independent; equality with owner's row by C02/C03 |
| C05 | reverse messages | same, with "some writer" semantics; pull;push = identity |
| C06 | push constructor | positive theorem for ascending lists, refutation in general |
| C07 | request vectors of each mode, including start/wait/clear | equivalence theorems for pull; refutations for the push paths that abort or start wrong requests |
| C08 | CSR `Array` state machine over a heap | refinement to list of rows by induction over operation lists |
| C09 | table layouts | address arithmetic lemmas, refinement to list of rows |
| C10 | heap of shared row descriptors, copies, swaps | frame lemmas; refutation for swap of max-layout arrays |
| C11 | serializer as a name/value store | round-trip theorem by cases on layout |
| C12 | pair dispatch | refinement to list append |
| C13 | bit-level packing in `N`/`Z` | shift/mask lemmas; induction over the matrix list |
| C14 | block addressing | arithmetic; frame |
| C15 | path split/join, tree store | induction over operation sequences; string lemmas |
| C16 | dedup by address with allocator model | refinement under "no address reuse"; refutation otherwise |
| C17 | scan offsets, dataset as list | list splitting |
| C18 | pool with handles as a transition system | invariant by induction over operations |
| C19 | C integer semantics (`Z.quot`, `Z.rem`, bounds) | arithmetic; `divCeil` refuted |
| C20 | two-pointer loop with fuel shown sufficient | induction; spec = filter of the product |
| C21 | timer arrays | refinement for enumerators; refutation for the integer overload |
| C22 | V2 and V1 factorization, solve, product over an abstract ring and module | invariant of right-/left-looking elimination: `L U = P A P^T` |
| C23 | LDL^T with a transpose anti-involution | as C22 |
| C24 | fill loop, sorted rows, position tables | closure invariant by induction on columns |
| C25 | `CheckAdj`, BFS, CM with sets as lists | termination/permutation by invariant on the unvisited set |
| C26 | loop over exact rationals | invariant |
| C27 | ring buffers | refinement to history list by induction over steps |
| C28 | coefficient tables over `Q` | `field`; linear spans of monomials |
| C29 | tableaux, stage loop over a module | `field`/`vm_compute` |
| C30 | `Step` and `StepPP` over a module | equality where it holds, refutation otherwise |
| C31 | Krylov loops over a module | residual invariant (PCG), refutation (GMRES breakdown) |
| C32 | 3-vectors and matrices over a field | `ring` with orthogonality hypotheses |
| C33 | integer predicates, string tables | case analysis |
| C34 | whole-world partition functions | counting lemmas |
| C35 | index conversion over the C02 mapping | case analysis with C02 |
| C36 | whole-world inversion through pull/push mappings | uses C04-C06 |
| C37 | set-valued relations as sorted lists | extensional characterisation |
| C38 | incremental face search | invariant by induction over cell sides |
| C39 | three-pass numbering and pointer chasing | measure on acyclic maps |
| C40 | permutation tables over ranks | extensional equality |
| C41 | `Allreduce` | refutation, and the correct statement for one rank |
| C42 | transcribed tables | finite computation over the complete finite domain |
| C43 | transcribed shape functions as polynomials over `Q`/any field | `ring`/`field` for all points |
| C44 | limiter formulas over `R` or `Q` | `nra`/case analysis |
| C45-C49 | gas formulas over `R` | `field`, case analysis, inequalities |
| C50 | running sums and squares over `R` | induction over the samples |
| C51 | basis functions and derivative matrices over `R` | iterated derivatives computed on a polynomial representation; the tables equal it at all points |
| C52 | quadrature tables over `Q` | exact sums of monomials with stated tolerances |
| C53 | triangles of `GetQuadPatches` as oriented edges | boundary chains cancel; areas add up |
| C54 | assembly over faces of one rank and of all ranks | sums over faces regrouped; permutation arguments |
| C55 | derivative tensors by multi-index | chain rule for polynomial and differentiable functions, contraction identities |
| C56 | base values, face functional, coefficients, iteration, linear problems over `R` | bilinear forms of jumps; convexity; polynomial representation; frame lemmas of in-place sweeps |
| C57 | limiters of increments and reconstructions over `R`, with their guard constants | concavity of the internal energy; roots of quadratics with a margin; reductions over ranks |
| C58 | sweeps, matrix product and block LU of the implicit solver over any block operators, on several ranks with ghosts | loop invariants of the sweeps; splitting of the row sums; uniqueness of triangular solutions; contraction of errors; the LU theorems of C22 |
| C59 | face Jacobian times vector, its matrix, the rows and diagonal of the implicit solver, periodic turns | linearity of every term; derivative rules along lines of states; closure of the cell; regrouping of the sums by faces |
| C60 | `generateBoundaryValue` for walls, symmetry planes, far fields, outlets and inlets, with a turning frame | covariance of the Roe flux under change of frame and reflection; case analysis on the characteristic speeds; algebra of the stagnation relations |
| C61 | The fluxes of C47 under an arbitrary linear isometry of the velocity space and under a Galilean boost. | Each part of the flux (averages, strengths, wave sum, star states) is shown covariant, then the solvers by composition. The boost is refuted for Roe with the Harten-Yee fix, whose threshold is the observer's speed, and for HLLC on a moving face. |
| C62 | Geometric.hpp 65-167 over the reals. | Every rotation is shown to be Rodrigues' formula, whose invariance of dot and cross products is one ring computation; adding of turns about an arbitrary axis is false below smallReal (refuted) and proved above. |
| C63 | The handler as parallel lists, JSON objects as records of their fields, the iteration order of the unordered map as a parameter. | Closed form of the table after reading, then lookups by position; round trip through the closed form of what is written. False parts refuted: integrationOption is not written for five types and symmetry planes; built-in ids have no flags; the name of a built-in id depends on the hash order. |
| C64 | The driver's state as a record, its ring of coefficients as a list, the slope with infinities followed and NaN as UB; the force as sums over boundary faces. | Invariant tying the ring to the list of coefficients since the last change; permutation of the ring to that window, so mean and extremes agree; induction over cycles for the linear lift. False parts refuted: exact hits give 0/0; the long threshold is an integer; default walls are counted once per name and include other walls; the y axis in two dimensions. |
| C65 | Recorders as records of real vectors, collective calls as functions of the list of rank states; sorted search as the linear scan with the same result. | Closed form of a bin as a sum of shares, telescoping of overlaps, pointwise sums for the ranks; loop invariant for the equilibrium; monotonicity of tanh and the bracket of C26 for the nodes. False parts refuted: faces of zero extent, uncovered bins, no anchors, reducing twice. |
| C66 | The whole mesh as a list of ranks, cells and nodes by global number; coordinates in R; the two passes (who owns a new node, search among the owner's nodes) as functions. | Owner = least cell around the span; numbers given out are injective by intervals; the search has one answer because places agree; table checks for spans and faces. Success from conformity and separation. False parts refuted: two layers in a periodic direction stop, one layer doubles nodes. |
| C67 | Cells and nodes by global number as in C66; the bisection tables of the elements as in C42; distances in R. | Tables are checked once for labels 0..n-1 and carried to any nodes by naturality; common faces through `seen_from`; volumes by ring identities in the coordinates; success from completeness; composition with C66. |
| C68 | `FoamModel` converts the record of a polyMesh as the reader does: faces per cell with ownership flags, the search for the node across from each bottom node, boundary elements and patches. | The search is checked on the table of all positions, starting points and ownerships of the faces of one hexahedron, and carried to any cell by renaming nodes (`FoamProofs.recover`); cells, shared faces and patches by induction over the lists. Refuted: malformed cells are not refused. |
| C69 | `VtkModel` runs the three functions on all ranks: flags of periods merged at the owners, numbers of the copies, slots of points, rows of cells, connectivity with prefix sums, and slabs written in any order. `VtkSpec` states VTK's cells and the picture. | The flags are the used (node, periods) pairs (`VtkFlags.flags_ok`); the slots are a numbering of them (`VtkNumber`, `VtkRecreate`); slabs laid end to end give the concatenation in any order (`VtkPut.put_ok`), and slices of it the cells (`VtkGrid`). Refuted: vectors are not turned at moved points; building twice breaks the file; middle nodes are not drawn. |
| C70 | `TimeLoopModel` runs the main loop over rational times: choice of the step, cut to the next output time, positivity-preserving step, clock, averages, counters of the numbered files, stop. What the flow decides comes in as one record per step. The effects are a trace of steps and files. | Induction over the turns with invariants on the clock and the next output time (`Time`), on the counters (`Files`), on contents (`Held`) and on lengths (`Len`). The sum of steps under the VBDF positivity step, scheme 1 with it, unkept averages, restarts and a zero interval are refuted by computed runs. |
| C71 | `FoamTextModel` runs the reader on a list of characters with the end-of-file and fail bits of C++ streams; results tell apart a value, a stop, undefined behaviour and a loop without end. `FoamTextSpec` gives the grammar as inductive relations that do not mention the reader. | Induction over the derivations of the grammar, one lemma per layer (blanks, text up to a mark, entries, numbers, lists, files). Lists longer than the count are refused. Short counts, cut files, two shapes of comments, blanks in lists, sizes of faces and a coordinate that is no number are refuted. |
| C72 | `InnerModel` runs the callback that ends an iteration inside the loops of the schemes, over real residuals, with `int` sums that overflow as undefined behaviour and a CFL number that may be no number. The effects are a trace of iterations, lines and files. | Induction over the turns of a stage, then over the stages of a step. The last call, made for an iteration that was not performed, the default and the zero length of the ramp, and schemes that go on after a stop are refuted. |
| C73 | `LogModel` fills the map of values name by name, writes the texts character by character, and keeps the files of the boundaries by id. Floating-point numbers and their printing are a parameter whose texts hold no separator. | The assignments of all lines are one list; the last one to a name decides its field. Splitting undoes joining. That the count of iterations in the line of a time step may be an old one, that a comma in a title shifts the columns and that the smallest integer is no number are refuted. |
| C74 | `ConfigModel` patches, points into and overwrites documents as ordered lists of members, with the behaviour of the JSON library the code relies on: null removes, lists are replaced, an index past the end fills up. | Induction over paths; the fold over the members of a patch decides each name by its only occurrence. Refusal of misspelt keys, no effect beside the overwritten key and defaults kept inside lists are refuted. |
| C75 | `RestartModel` gives the names, the acts of each rank on the disk (empty a file by opening it, fill it by closing it, print the settings) and the reading. A history is any interleaving of the ranks, stopped anywhere. | A file depends only on the acts of the one rank that names it, since names are injective; induction over histories. With HDF5 and a fresh name a crash leaves a whole restart. With one file per rank, or a name in use, it does not (refuted), and old and new parts can be mixed unnoticed (refuted). |
