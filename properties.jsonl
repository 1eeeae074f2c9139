{"id": "C01", "title": "Global index <-> (rank, local index) is a bijection", "statement": "After the ranks have agreed on their local lengths, converting (rank, local) to a global index and searching that index gives back the same rank and local position; a global index is found exactly when it lies in [0, total size), and the pair found converts back to it. Ranks owning nothing are never returned.", "quantifier": "every number of ranks, every vector of non-negative rank lengths (including empty ranks), every queried integer, negative ones included", "why_tests_cant": "the boundary cases (empty ranks, index equal to an offset, queries past the end) depend on the whole length vector; no finite list of partitions covers them", "anchors": ["src/DNDS/IndexMapping.hpp: GlobalOffsetsMapping::setMPIAlignBcast, operator(), search, globalSize"]}
{"id": "C02", "title": "Ghost mapping built from a pull set resolves exactly main and requested indices", "statement": "A ghost mapping built from an arbitrary (unsorted, repeating) list of global indices assigns every distinct requested index exactly one ghost slot, ghost slots are grouped by owning rank in ascending global order, looking up an index succeeds iff it is owned locally or was requested, and local-append numbering and global numbering are mutually inverse on it.", "quantifier": "every rank layout, every rank, every pull list over valid global indices, every queried index", "why_tests_cant": "binary-search behaviour depends on the complete sorted ghost set and on per-rank counts; failures show only for particular layouts", "anchors": ["src/DNDS/IndexMapping.hpp: OffsetAscendIndexMapping (pull constructor), search, search_indexAppend, search_indexRank, operator()"]}
{"id": "C03", "title": "Pull plan and push plan are dual across ranks", "statement": "What rank r is set up to receive from rank s is exactly, index by index and in the same order, what rank s is set up to send to rank r; the counts exchanged equal the counts used; the concatenated send list of s covers every ghost of s's rows on any rank exactly once per requesting rank.", "quantifier": "every number of ranks, every family of pull lists (one per rank) over valid indices, every pair of ranks", "why_tests_cant": "a mismatch needs a particular combination of requests on several ranks at once; tests run a handful of rank counts", "anchors": ["src/DNDS/IndexMapping.hpp: OffsetAscendIndexMapping constructors (Alltoall of sizes, Alltoallv of indices)"]}
{"id": "C04", "title": "A ghost pull makes every ghost row equal to its owner's row", "statement": "After one pull, for every rank and every ghost slot, the ghost row has the owner's row size and the owner's row content for the global index of that slot, father rows are unchanged on every rank, and the result does not depend on the order in which messages are completed.", "quantifier": "every number of ranks, every father contents with arbitrary per-row sizes, every family of pull lists, every completion order of the messages", "why_tests_cant": "message completion order is a schedule, and layouts/sizes are unbounded", "anchors": ["src/DNDS/ArrayTransformer.hpp: createGhostMapping, createMPITypes, pullOnce, startPersistentPull, waitPersistentPull"]}
{"id": "C05", "title": "A ghost push writes owners from ghosts and touches nothing else", "statement": "After one push every father row that is a ghost on some rank holds the value of one of those ghost copies, rows that are ghosts nowhere are unchanged, and ghost rows are unchanged; if a row is a ghost on exactly one rank the result is independent of completion order; a pull followed directly by a push changes nothing.", "quantifier": "every number of ranks, contents, pull lists and message completion orders", "why_tests_cant": "depends on schedules and on rows ghosted by several ranks", "anchors": ["src/DNDS/ArrayTransformer.hpp: pushOnce, createMPITypes, startPersistentPush, waitPersistentPush"]}
{"id": "C06", "title": "Ghost mapping built from a push list resolves what was pushed", "statement": "When each rank builds a ghost mapping by listing the local rows it sends to each rank, every rank receives the listed rows grouped by sender in the listed order, and looking up a received global index finds its slot.", "quantifier": "every number of ranks and every family of push lists; lookups for every received index", "why_tests_cant": "lookups use binary search over data that is not sorted by this constructor, so the outcome depends on the ordering of the caller's lists", "anchors": ["src/DNDS/IndexMapping.hpp: OffsetAscendIndexMapping (push constructor), searchInAllGhost", "src/DNDS/ArrayTransformer.hpp: createGhostMapping(pushingIndexLocal, pushingStarts)"]}
{"id": "C07", "title": "Communication strategies and completion modes agree", "statement": "Derived-datatype, in-situ packed and one-by-one modes of the same exchange produce the same arrays, each message is transferred exactly once per start/wait cycle, and no mode aborts on an exchange another mode performs.", "quantifier": "every exchange plan (including ranks with nothing to send or receive), every mode, pull and push", "why_tests_cant": "mode/plan combinations and empty-message corner cases are many and only appear on particular partitions", "anchors": ["src/DNDS/ArrayTransformer.hpp: initPersistentPush, initPersistentPull, __InSituPackStartPush, __InSituPackStartPull, waitPersistentPush, waitPersistentPull, clearPersistentPush, pushOnce, pullOnce", "src/DNDS/MPI.hpp: CommStrategy"]}
{"id": "C08", "title": "A variable-row array behaves like a list of rows", "statement": "Any sequence of resize, row-resize, element write, compress and decompress operations on a compressed-row array leaves the contents that the same operations leave on a plain list of rows; compressing and decompressing never change any row; operations the array rejects are exactly those that are out of range or need the other storage mode.", "quantifier": "every operation sequence of any length, every row size vector, every element value", "why_tests_cant": "the state (flat buffer, row starts, per-row vectors) depends on the entire history", "anchors": ["src/DNDS/Array.hpp: Resize, ResizeRow, at, operator(), RowSize, CSRCompress, CSRDecompress"]}
{"id": "C09", "title": "Fixed- and max-stride arrays behave like lists of rows", "statement": "For table layouts, the element at (i,j) is stored at offset i*stride+j, distinct (i,j) never alias, every in-range access is inside the buffer, and changing one row's size or element leaves all others unchanged.", "quantifier": "every size, stride, row sizes and index pair; every operation sequence", "why_tests_cant": "aliasing and bounds are statements about all index pairs", "anchors": ["src/DNDS/Array.hpp: Resize, ResizeRow, RowSize, at, operator[], _GetDataLayout"]}
{"id": "C10", "title": "Copies of an array are isolated from the original", "statement": "Changing row sizes or elements of a copy never changes the row structure or the content seen through the original and vice versa; swapping two arrays exchanges exactly their contents.", "quantifier": "every pair of arrays of each layout and every sequence of later operations on either", "why_tests_cant": "row structure is held through shared pointers, so isolation depends on the sharing history", "anchors": ["src/DNDS/Array.hpp: CopyData, SwapData, ResizeRow, Resize, CSRCompress, CSRDecompress"]}
{"id": "C11", "title": "Array serialization round trip", "statement": "Writing an array to a serializer under a name and reading it back under that name gives an array with the same size, the same row sizes and the same elements, for every data layout, compressed or not.", "quantifier": "every layout, every array content (including empty arrays and empty rows)", "why_tests_cant": "needs every content and layout, including degenerate ones", "anchors": ["src/DNDS/Array.hpp: WriteSerializer, ReadSerializer, GetArraySignature, ParseArraySignatureTuple, ArraySignatureIsCompatible"]}
{"id": "C12", "title": "Father/son pair is the concatenation of its halves", "statement": "Indexing a father-son pair by i is indexing the concatenation father ++ son: reads, writes, row sizes and row resizing go to exactly that row and no other; the size is the sum.", "quantifier": "every pair of arrays and index", "why_tests_cant": "for-all over indices and sizes, including empty halves", "anchors": ["src/DNDS/ArrayPair.hpp: operator[], operator(), RowSize, ResizeRow, Size"]}
{"id": "C13", "title": "Matrix batches survive packing into one row", "statement": "Storing a list of matrices of arbitrary (possibly different) shapes into a row and reading matrix k back returns the k-th matrix exactly, matrices occupy disjoint parts of the row, and the size requested for the row is exactly sufficient.", "quantifier": "every list of matrices whose dimensions are below 65535 and whose total size fits 32 bits", "why_tests_cant": "the header packs three fields into one 64-bit word; correctness concerns all dimension combinations", "anchors": ["src/DNDS/ArrayDerived/ArrayEigenMatrixBatch.hpp: MatrixBatch::getBufSize, CompressIn, operator[], UInt32PairIn64, UInt16QuadIn64"]}
{"id": "C14", "title": "Uniform matrix batches and matrix rows address disjoint blocks", "statement": "For arrays of equally sized matrices, matrix j of row i is the j-th block of rows*cols entries, writes to one never change another, a row resized to b matrices reports b matrices; a matrix array reports for each row the number of columns it was given.", "quantifier": "every matrix shape, batch size and index", "why_tests_cant": "addressing statement over all indices", "anchors": ["src/DNDS/ArrayDerived/ArrayEigenUniMatrixBatch.hpp", "src/DNDS/ArrayDerived/ArrayEigenMatirx.hpp: Resize, ResizeRow, MatColSize, MatRowSize, WriteSerializer, ReadSerializer"]}
{"id": "C15", "title": "Serializer paths form a file-system-like tree", "statement": "Creating a path and going to it makes it current; going to the path reported as current is a no-op; going to a relative name from a path and going back to the saved path restores it; a value written under a name at a path is what is read under that name at that path, and writes elsewhere do not change it.", "quantifier": "every sequence of create/goto/write/read operations over every non-empty slash-free name", "why_tests_cant": "histories are unbounded", "anchors": ["src/DNDS/SerializerJSON.cpp: processPath, constructPath, CreatePath, GoToPath, GetCurrentPath, Write*, Read*", "src/DNDS/SerializerH5.cpp: processPath, constructPath, CreatePath, GoToPath"]}
{"id": "C16", "title": "Shared vectors are written once and come back shared", "statement": "A vector shared by several arrays is stored once; reading the arrays back gives each the content it had when written, and arrays that shared a vector share one again.", "quantifier": "every sequence of shared-vector writes and of reads, every sharing pattern, every address-reuse behaviour of the allocator between writes", "why_tests_cant": "depends on object addresses and lifetimes, which tests do not control", "anchors": ["src/DNDS/SerializerJSON.cpp: WriteSharedIndexVector, WriteSharedRowsizeVector, ReadSharedIndexVector, ReadSharedRowsizeVector", "src/DNDS/SerializerH5.cpp: WriteSharedIndexVector, ReadSharedIndexVector"]}
{"id": "C17", "title": "Parallel file parts tile the dataset", "statement": "When every rank writes its part of a distributed vector, the parts occupy consecutive disjoint ranges covering the dataset in rank order, and a later read on the same number of ranks returns each rank its own part.", "quantifier": "every number of ranks and every vector of part sizes, including empty parts", "why_tests_cant": "all size vectors; empty parts on some ranks", "anchors": ["src/DNDS/SerializerH5.cpp: WriteDataVector, ReadDataVector", "src/DNDS/SerializerBase.hpp: ArrayGlobalOffset"]}
{"id": "C18", "title": "Object pool conserves objects", "statement": "An object obtained from the pool is never handed to two live handles, returning handles puts objects back, and pooled plus borrowed objects stay constant except for explicit allocation or resizing.", "quantifier": "every sequence of get/allocate/return/move/resize operations", "why_tests_cant": "histories of handle moves are unbounded", "anchors": ["src/DNDS/ObjectPool.hpp: ObjectPool::get, getAlloc, getAllocInit, resize, ObjectPoolAllocated"]}
{"id": "C19", "title": "Integer helpers are exact", "statement": "Checked addition detects exactly the sums that do not fit, prefix sums of row sizes are the exact starts, ceiling division is the ceiling, modulo is the non-negative remainder, and checked narrowing keeps the value.", "quantifier": "all 64/32-bit values", "why_tests_cant": "for-all over machine integers, with overflow corners", "anchors": ["src/DNDS/Defines.hpp: signedIntWillAddOverflow, signedIntSafeAdd, AccumulateRowSize, divide_ceil, divCeil, mod, checkedIndexTo32, size_t_to_signed"]}
{"id": "C20", "title": "Sorted-list matching visits exactly the common elements", "statement": "Walking two ascending sequences reports exactly the pairs of positions holding equal elements (all of them, in order, unless the visitor stops it), and terminates.", "quantifier": "every pair of strictly ascending sequences and every visitor", "why_tests_cant": "all sequences", "anchors": ["src/DNDS/Defines.hpp: iterateIdentical"]}
{"id": "C21", "title": "Performance timers accumulate the time between start and stop", "statement": "Starting and stopping a timer adds the elapsed time to that timer only, whether it is addressed by its enumerator or by a plain integer.", "quantifier": "every sequence of start/stop calls on every timer and every clock", "why_tests_cant": "histories and clocks are arbitrary", "anchors": ["src/DNDS/Profiling.cpp: PerformanceTimer::StartTimer, StopTimer"]}
{"id": "C22", "title": "Direct block LU solves the linear system", "statement": "With the complete factorization option, factorizing a block matrix on a symmetric adjacency and solving returns x with A x = b, for any elimination ordering, provided the pivots met are invertible; the product routine computes A x.", "quantifier": "every symmetric adjacency, every ordering, all matrix entries from any (non-commutative) ring, every right-hand side", "why_tests_cant": "all graphs and orderings; fill-in depends on the whole elimination", "anchors": ["src/Solver/Direct.hpp: SerialSymLUStructure::ObtainSymmetricSymbolicFactorization, LocalLUBase::InPlaceDecompose, Solve, MatMul"]}
{"id": "C23", "title": "Direct block LDL^T solves the linear system", "statement": "For a symmetric block matrix the LDL^T variant solves A x = b under the same conditions.", "quantifier": "every symmetric adjacency, ordering, symmetric block entries, right-hand side", "why_tests_cant": "as for LU", "anchors": ["src/Solver/Direct.hpp: LocalLDLTBase::InPlaceDecompose, Solve, MatMul"]}
{"id": "C24", "title": "Symbolic factorization is closed and its position tables are right", "statement": "The lower and upper patterns are transposes of each other, contain the permuted adjacency, are sorted, contain every fill entry elimination can create when complete, contain only entries of the adjacency when incomplete of level 0, and every stored cross-position points at the entry it claims.", "quantifier": "every symmetric adjacency, every ordering, every fill level", "why_tests_cant": "all graphs", "anchors": ["src/Solver/Direct.hpp: SerialSymLUStructure::ObtainSymmetricSymbolicFactorization"]}
{"id": "C25", "title": "Cuthill-McKee ordering is a valid permutation on every graph", "statement": "The graph check accepts exactly the loop-tolerant symmetric graphs without repeated edges; on every accepted graph (connected or not) the reverse Cuthill-McKee routine terminates without raising and returns a permutation together with its inverse.", "quantifier": "every graph size and adjacency", "why_tests_cant": "all graphs, including disconnected ones and isolated vertices", "anchors": ["src/Geom/CorrectRCM.hpp: CheckAdj, BreadthFirstSearch, CuthillMcKeeOrdering", "src/Geom/SerialAdjReordering.hpp: ReorderSerialAdj_CorrectRCM"]}
{"id": "C26", "title": "Bisection brackets the target", "statement": "For any function whose bracket satisfies the precondition the returned point lies in the bracket, its function value does not exceed the target, and the enclosing bracket shrinks by half each iteration.", "quantifier": "every function, bracket, target and iteration count", "why_tests_cant": "quantifies over functions", "anchors": ["src/Solver/Scalar.hpp: BisectSolveLower"]}
{"id": "C27", "title": "Multistep history is the true history", "statement": "After any number of accepted steps, the previous solutions and step sizes a BDF/VBDF step combines are the most recent ones in order, the effective order grows by one per step up to the maximum, and no older state is read.", "quantifier": "every maximum order and every number and sequence of steps", "why_tests_cant": "ring-buffer contents depend on the whole step history", "anchors": ["src/Solver/ODE.hpp: ImplicitBDFDualTimeStep::Step, ImplicitVBDFDualTimeStep::Step, VBDFFrontMatters"]}
{"id": "C28", "title": "BDF/VBDF coefficients have their nominal order", "statement": "The k-step BDF formula is exact for polynomials of degree k; the variable-step formula is exact for quadratics at any step ratio and coincides with BDF2 at constant step.", "quantifier": "every polynomial of the stated degree, every (positive) step sizes", "why_tests_cant": "for-all over polynomials and step ratios", "anchors": ["src/Solver/ODE.hpp: BDFCoefs, VBDFFrontMatters"]}
{"id": "C29", "title": "Runge-Kutta tableaux and stage algorithm are consistent", "statement": "A step of each Runge-Kutta option reproduces solutions that are polynomials of the scheme's nominal degree for time-dependent right-hand sides; weights sum to one and abscissae equal row sums.", "quantifier": "every right-hand side polynomial of the degree, every step size and start time", "why_tests_cant": "for-all over right-hand sides", "anchors": ["src/Solver/ODE.hpp: ImplicitSDIRK4DualTimeStep, ExplicitSSPRK3TimeStepAsImplicitDualTimeStep, ImplicitHermite3SimpleJacobianDualStep"]}
{"id": "C30", "title": "Increment-limited stepping with inactive limiters equals plain stepping", "statement": "StepPP with limiters that never act advances exactly like Step.", "quantifier": "every state, right-hand side and step history", "why_tests_cant": "for-all over states and histories", "anchors": ["src/Solver/ODE.hpp: ImplicitBDFDualTimeStep::StepPP, ImplicitVBDFDualTimeStep::StepPP"]}
{"id": "C31", "title": "Iterative linear solvers report convergence truthfully", "statement": "When GMRES reports success the residual has met the stopping test; the conjugate-gradient recursion's residual always equals the residual of its current iterate.", "quantifier": "every linear operator, preconditioner, right-hand side and initial guess", "why_tests_cant": "quantifies over operators; breakdown cases are measure-zero", "anchors": ["src/Solver/Linear.hpp: GMRES_LeftPreconditioned::solve, PCG_PreconditionedRes::solve"]}
{"id": "C32", "title": "Periodic transformations invert and compose", "statement": "Mapping a point, vector or tensor through a periodic boundary and back is the identity, donor and main directions are inverse, and applying and un-applying the periodic bits of a node is the identity.", "quantifier": "every set of orthogonal rotations, centres and translations, every point and every bit combination", "why_tests_cant": "for-all over transformations and points", "anchors": ["src/Geom/PeriodicInfo.hpp: Periodicity::TransCoord, TransCoordBack, TransVector, TransMat, GetCoordByBits, GetCoordBackByBits, GetVectorByBits, NodePeriodicBits"]}
{"id": "C33", "title": "Boundary ids classify exclusively and names resolve consistently", "statement": "Every boundary id is exactly one of external, true internal, periodic main or periodic donor in the library's range; both name tables agree for every name; unknown names resolve to the unknown id.", "quantifier": "every integer id, every string", "why_tests_cant": "for-all over strings and ids", "anchors": ["src/Geom/BoundaryCondition.hpp: FaceIDIs*, FBC_Name_2_ID_Default, GetFaceName2IDDefault"]}
{"id": "C34", "title": "Redistribution by partition is a bijection with consistent renumbering", "statement": "Given a partition vector on each rank, every item is sent to exactly its assigned rank, the new global numbers assigned to items form a bijection with [0,total), and the number assigned to an item is the place where its data actually lands after the transfer.", "quantifier": "every number of ranks, local sizes and partition vectors", "why_tests_cant": "correctness couples counting, prefix sums and communication order over all ranks", "anchors": ["src/Geom/Mesh.cpp: Partition2LocalIdx, Partition2Serial2Global, TransferDataSerial2Global, ConvertAdjSerial2Global, PushInfo2Serial2Global"]}
{"id": "C35", "title": "Adjacency conversion between global and local numbering is lossless", "statement": "Converting adjacency to local numbering and back to global gives the original, including entries that are not resolvable locally and unset entries; local numbers of resolvable entries are in range.", "quantifier": "every ghost layout and every adjacency content", "why_tests_cant": "for-all over layouts and entries", "anchors": ["src/Geom/Mesh.hpp: *IndexGlobal2Local, *IndexLocal2Global", "src/Geom/Mesh.cpp: AdjGlobal2LocalPrimary, AdjLocal2GlobalPrimary, AdjGlobal2LocalC2F, AdjLocal2GlobalC2F"]}
{"id": "C36", "title": "Node-to-cell inversion is exact across ranks", "statement": "The recovered node-to-cell relation on the node's owner lists exactly the cells (on any rank) that contain the node, each once.", "quantifier": "every distributed cell-to-node relation", "why_tests_cant": "contributions come from several ranks and pass through two exchanges", "anchors": ["src/Geom/Mesh.cpp: GeneralCell2NodeToNode2Cell, RecoverNode2CellAndNode2Bnd"]}
{"id": "C37", "title": "Cell neighbourhoods are complete, symmetric and irreflexive", "statement": "The recovered cell-to-cell relation lists exactly the other cells sharing a node, symmetrically; a non-periodic boundary's cell is the unique cell containing all its nodes.", "quantifier": "every mesh connectivity and rank layout", "why_tests_cant": "all meshes", "anchors": ["src/Geom/Mesh.cpp: RecoverCell2CellAndBnd2Cell", "src/Geom/Mesh_Serial_BuildCell2Cell.cpp: BuildCell2Cell"]}
{"id": "C38", "title": "Face interpolation pairs cells correctly", "statement": "Every cell side is mapped to exactly one face, a face is shared by at most two cell sides, two sides share a face exactly when they have the same type and vertex set, and each inter-rank face is owned by exactly one of its two ranks (the lower one).", "quantifier": "every set of cells in which no vertex set occurs on more than two sides; every ownership of the two cells", "why_tests_cant": "matching goes through an incremental search structure whose state depends on all earlier cells", "anchors": ["src/Geom/Mesh.cpp: InterpolateFace, AssertOnFaces"]}
{"id": "C39", "title": "Periodic node merging renumbers densely", "statement": "After merging periodic donor nodes into their mains, the surviving nodes are numbered densely from zero, every node resolves to a surviving one, and a donor resolves to the same survivor as its main.", "quantifier": "every three donor-to-main maps that are acyclic, every node count", "why_tests_cant": "chains of donors across three periodic directions", "anchors": ["src/Geom/Mesh_Serial_BuildCell2Cell.cpp: Deduplicate1to1Periodic"]}
{"id": "C40", "title": "Local cell reordering preserves the mesh", "statement": "Reordering local cells applies one permutation consistently: every relation (cell to node, cell to cell, face to cell, boundary to cell) is the old relation up to that permutation, on every rank.", "quantifier": "every mesh and every permutation per rank", "why_tests_cant": "all meshes and permutations", "anchors": ["src/Geom/Mesh.cpp: ReorderLocalCells"]}
{"id": "C41", "title": "Mesh order query agrees on all ranks", "statement": "All ranks get the same answer when asking whether the distributed mesh consists only of first-order (second-order) elements, and the answer is true iff it holds for all cells of all ranks.", "quantifier": "every distribution of element types over ranks", "why_tests_cant": "needs ranks with different content", "anchors": ["src/Geom/Mesh.cpp: UnstructuredMesh::IsO1, IsO2"]}
{"id": "C42", "title": "Element tables describe a closed, conforming cell boundary", "statement": "For every element type the faces use only existing nodes, every edge of the cell is traversed once in each direction by its faces, face vertex lists are consistent with the face's own type, and second-order face nodes are the mid-nodes of the face's edges.", "quantifier": "every element type, every face", "why_tests_cant": "a finite but combinatorial table whose use quantifies over all meshes", "anchors": ["src/Geom/Elements.hpp: __Get_FaceNodeList, GetFaceType, __Get_Dim_Order_NVNNNF, __Get_ElemElevationSpan_O1O2List"]}
{"id": "C43", "title": "Shape functions are a nodal basis with correct derivatives", "statement": "For every element type, at every point, the shape functions sum to one, are one at their node and zero at the others, reproduce linear fields, and the tabulated first, second and third derivatives are the derivatives of the functions.", "quantifier": "every element type, every parameter point, every tabulated derivative", "why_tests_cant": "identity of functions at all points", "anchors": ["src/Geom/Elements.hpp: ShapeFunc_DiNj, GetStandardCoord"]}
{"id": "C44", "title": "Slope limiters stay within the data", "statement": "The min-mod limiter returns a value between zero and both arguments; van Leer's limiter returns a value of the common sign that is at most the larger argument and at most twice the smaller; both return zero for arguments of opposite sign. The weighted biased-average limiters return a weighted mean of their arguments in which a smaller argument weighs more, exceed the largest argument by no more than the regularisation constant, are odd, and scale with the data. The polynomial versions use a norm that does not depend on the direction of the axes, and the minimum-norm limiter never returns a larger norm than a candidate.", "quantifier": "every pair (list) of real arguments and weight", "why_tests_cant": "for-all over reals", "anchors": ["src/CFV/Limiters.hpp: FMINMOD_Biway, FVanLeer_Biway, FWBAP_L2_Biway, FWBAP_L2_Cut_Biway, FWBAP_L2_Multiway, FWBAP_L2_Biway_PolynomialNorm, FMEMM_Biway_PolynomialNorm, FWBAP_L2_Biway_PolynomialOrth, FWBAP_L2_Multiway_Polynomial2D, FWBAP_L2_Multiway_PolynomialOrth, FMEMM_Multiway_Polynomial2D"]}
{"id": "C45", "title": "Conservative and primitive variables convert back and forth", "statement": "Converting a state with positive density to primitive variables and back (or the reverse) is the identity, in two and three dimensions, with any number of extra scalars.", "quantifier": "every state with positive density, every gamma other than one", "why_tests_cant": "for-all over states", "anchors": ["src/Euler/Gas.hpp: IdealGasThermalConservative2Primitive, IdealGasThermalPrimitive2Conservative, IdealGasThermal"]}
{"id": "C46", "title": "Characteristic transforms are inverse and diagonalise the flux", "statement": "The left and right eigenvector matrices are mutually inverse, and they diagonalise the Jacobian of the x-direction flux with eigenvalues u-a, u, u+a.", "quantifier": "every state with positive density and sound speed, every gamma other than one, two and three dimensions", "why_tests_cant": "for-all over states", "anchors": ["src/Euler/Gas.hpp: EulerGasRightEigenVector, EulerGasLeftEigenVector, IdealGas_EulerGasRightEigenVector, IdealGas_EulerGasLeftEigenVector, GasInviscidFluxFacialIncrement"]}
{"id": "C47", "title": "Numerical fluxes are consistent, conservative and upwind", "statement": "Each Riemann-solver option returns the physical flux for equal states, changes sign exactly when the two states are swapped and the normal reversed, and returns the upwind physical flux when all waves move one way.", "quantifier": "every pair of admissible states, unit normal, grid velocity, gamma and option", "why_tests_cant": "for-all over states, including transonic and moving-grid corners", "anchors": ["src/Euler/Gas.hpp: RoeFlux_IdealGas_HartenYee, HLLCFlux_IdealGas_HartenYee, HLLEPFlux_IdealGas, GasInviscidFlux_XY, InviscidFlux_IdealGas_Dispatcher"]}
{"id": "C48", "title": "Pressure-positivity scaling delivers the requested internal energy", "statement": "The compression ratio returned lies in [0,1], and applying it to the increment leaves internal energy at or above the requested floor whenever the routine returns.", "quantifier": "every state, increment and floor", "why_tests_cant": "for-all over states; includes degenerate quadratics", "anchors": ["src/Euler/Gas.hpp: IdealGasGetCompressionRatioPressure"]}
{"id": "C49", "title": "Flux and gradient linearisations are exact derivatives", "statement": "The increment formulas for velocity, pressure and face flux, and the gradient conversion to primitive variables, are the exact directional derivatives of the corresponding nonlinear maps.", "quantifier": "every state with non-zero density, every increment", "why_tests_cant": "for-all over states and directions", "anchors": ["src/Euler/Gas.hpp: IdealGasUIncrement, GasInviscidFluxFacialIncrement, GradientCons2Prim_IdealGas"]}
{"id": "C50", "title": "Running statistics are exact", "statement": "After any sequence of updates the running statistics report the mean, the population standard deviation and the sum of all values given since the last clear.", "quantifier": "every non-empty sequence of real values", "why_tests_cant": "unbounded sequences of values", "anchors": ["src/DNDS/Profiling.hpp: ScalarStatistics::update, get, getSum"]}
{"id": "C51", "title": "Basis derivative matrices hold the derivatives of the monomials", "statement": "For every matrix size, evaluation point and nonzero length scales, the entry in the row of a derivative and the column of a basis monomial equals that partial derivative, with respect to physical coordinates, of the monomial of normalised coordinates; the index tables list every derivative up to order 3 exactly once by increasing order, mapping any sequence of axes to the index of its derivative, and the combination counts are the numbers of such sequences.", "quantifier": "all row and column counts, all points and length scales, all monomials and sequences of at most three axes, in 2D and 3D", "why_tests_cant": "The matrix is filled by sixteen hand-unrolled branches with hundreds of formulas, and tests evaluate few sizes at few points; agreement must hold as functions.", "anchors": ["src/Geom/BaseFunction.hpp: FPolynomialFill2D, FPolynomialFill3D, FPolynomial3D, iPow, diffOperatorOrderList, diffOperatorDimList, __get_diffOperatorIJK2I, diffNCombs, GetNDof"]}
{"id": "C52", "title": "Quadrature rules integrate polynomials of their order", "statement": "Integrating over an element with a rule of integration order o, for o up to 6, adds to the caller's buffer the integral over the reference element of every polynomial of total degree at most o, up to the rounding of the tabulated abscissae and weights. Every quadrature point lies strictly inside the reference element, every weight is positive and the number of points is the one the scheme announces. An unsupported order must be refused rather than give an empty sum.", "quantifier": "every element parameter space, every order 0..6, every polynomial of that degree with arbitrary real coefficients, every initial buffer; and every order outside the range", "why_tests_cant": "tests integrate a few sample functions; exactness must hold for every polynomial of the degree, and a wrong digit in one table entry shows only for particular monomials", "anchors": ["src/Geom/Quadrature.hpp: GetQuadratureScheme, GetQuadraturePoint, Quadrature::Integration, __GaussLegendre_*, __GaussJacobi_*, __HammerTri_*, __HammerTet_*"]}
{"id": "C53", "title": "The wall triangles cover each wall face exactly once", "statement": "Cutting a face at its integration points, as the wall distance search does, gives triangles whose corners are all existing nodes or integration points and which cover the reference face exactly once: every interior point off the cuts lies in exactly one triangle and no outside point in any. Wherever the nodes and integration points are in space, the total area vector is that of the polygon of the nodes around the face. An edge becomes the chain of segments through its integration points from the first node to the second.", "quantifier": "every line, triangle and quadrilateral element type, every integration order 0..6, every point of the plane, every position of the nodes and integration points", "why_tests_cant": "twenty hand-written index lists select corners; a wrong index leaves a hole or an overlap of a part of one face for one rule, which changes distances only near it", "anchors": ["src/Geom/Quadrature.hpp: GetQuadPatches", "src/Euler/EulerEvaluator_EvaluateDt.hxx: GetWallDist (wallDistScheme 1)"]}
{"id": "C54", "title": "The finite volume right-hand side is conservative and independent of partition", "statement": "On every rank the assembled right-hand side of each own cell is the sum of the fluxes through that cell's faces, over its volume, plus its source, so it does not depend on how the mesh is partitioned nor on whether the gathering build with threads is used. Summed over all cells of all ranks only boundary fluxes and sources remain, for mass, energy and scalars under any periods and for momentum under periods that do not turn. A uniform flow on closed cells has zero right-hand side. The reported wall force counts each wall face once.", "quantifier": "every mesh, partition into ranks with ghosts, face numbering and orientation, integration rule, flux values, volumes, source factors, periods and component", "why_tests_cant": "tests run a few meshes on a few ranks and compare to tolerances; cancellation of every interior face and independence of partition must hold for all", "anchors": ["src/Euler/EulerEvaluator_EvaluateRHS.hxx: EvaluateRHS", "src/Euler/EulerEvaluator.hpp: UFromCell2Face, UFromFace2Cell", "src/Geom/Mesh.hpp: CellIsFaceBack"]}
{"id": "C55", "title": "Derivatives convert between coordinates by the chain rule", "statement": "Given the derivatives of functions up to third order laid out by rows, the conversion under a linear change of coordinates gives exactly the derivatives of the composed functions, and any other number of rows is refused; across a period, turned or not, it gives the derivatives of the function followed through the period, and turning back restores them; the derivatives of the inverse of a change of coordinates are obtained from those of the change. The inner product of derivatives of one order is the full contraction of the symmetric tensors and does not change under rotation. The conversion under a general change of coordinates gives the derivatives of the composed functions (false beyond first derivatives unless the change has no higher derivatives).", "quantifier": "every dimension 2 or 3, order up to 3, differentiable functions, regions, change of coordinates, period data, rotation and point", "why_tests_cant": "tests compare a few matrices; the chain rule must hold for all differentiable functions and all rows of the layout", "anchors": ["src/Geom/DiffTensors.hpp: NormSymDiffOrderTensorV, TransSymDiffOrderTensorV, ConvertDiffsLinMap, ConvertDiffsFullMap, DxDxi2DxiDx", "src/Geom/PeriodicInfo.hpp: TransDiValueInplace, TransDiValueBackInplace"]}
{"id": "C56", "title": "Variational reconstruction keeps cell means, is built on a true inner product of jumps and reproduces polynomials", "statement": "The base values computed at a point are the derivatives of the cell's base functions; the base functions have mean zero over the cell, so the reconstruction keeps the cell value whatever its coefficients; the functional of a face is the weighted contraction of derivatives up to the order, a symmetric, bilinear and non-negative product; the coefficients of the iteration are built for every valid mesh; a reconstruction without jumps across faces, periods included, is a fixed point of the reconstruction iteration in both modes and records a zero increment; in particular every polynomial up to the order has coefficients that reproduce it and stay as they are; with given boundary values the fixed points are exactly the minimisers of the jumps and no sweep increases them; the linear operator of the iteration is the exact change of the recorded increment, a solution of the linear problem taken off gives a fixed point, relaxation passes leave exactly the solutions, and the operator times the matrices of the cells is symmetric and non-negative.", "quantifier": "all supported dimensions, orders, scalings, weights, orientations, meshes, integration rules, periods, cell values, boundary callbacks and relaxation factors", "why_tests_cant": "The property ranges over all meshes, cell shapes, weights and polynomials, and over derivative tables of 20 functions at arbitrary points; a convergence test on a few meshes cannot tell a wrong coefficient from an inaccurate scheme.", "anchors": ["src/CFV/VariationalReconstruction.hpp: FDiffBaseValue, GetIntPointDiffBaseValue, FFaceFunctional", "src/CFV/VariationalReconstruction.cpp: ConstructBaseAndWeight, ConstructRecCoeff", "src/CFV/VariationalReconstruction_Reconstruction.hxx: GetBoundaryRHS, DoReconstructionIter", "src/CFV/VariationalReconstruction_Reconstruction.hxx: GetBoundaryRHSDiff, DoReconstructionIterDiff, DoReconstructionIterSOR"]}
{"id": "C57", "title": "The positivity limiters keep density, internal energy and turbulence variables within their bounds", "statement": "Starting from a mean value above the solver's bounds, a reconstructed face value has no negative density, internal energy or two-equation turbulence variable; the fix-up of an increment returns a fraction of it that keeps density and internal energy above the bounds; the increment limiter gives every cell of every rank a multiplier in [0,1] such that it and every smaller one keep the relaxed bounds, and reports the number of limited cells and the least multiplier truthfully; an update of a cell passes the solver's own check of mean values; a limited reconstruction is above the bounds at every quadrature point and the limiter answers for every polynomial; time-step smoothing stays between half the old step and the old step.", "quantifier": "all mean values, increments, polynomials, quadrature points, base orders, turbulence models, bounds, relaxation factors, exponents and numbers of cells and ranks", "why_tests_cant": "The limiters only act near vacuum, on states a test case reaches by accident; the property must hold for every increment and every polynomial, and whether the roots of the quadratic stay on the safe side is an inequality over reals.", "anchors": ["src/Euler/EulerEvaluator.hpp: CompressRecPart, CompressInc, AddFixedIncrement", "src/Euler/EulerEvaluator.hxx: EvaluateURecBeta, AssertMeanValuePP, EvaluateCellRHSAlpha, EvaluateCellRHSAlphaExpansion, MinSmoothDTau", "src/Euler/EulerSolver.hxx: fincrement"]}
{"id": "C58", "title": "The linear solvers of the implicit time stepping solve the system they are given", "statement": "The matrix product used by the Krylov solver is, in every cell, the diagonal block times the cell's value plus the increments from all neighbours; the two triangular sweeps solve (D+L)y=rhs and (D+U)x=Dy, whatever the array held before, and are linear; a Gauss-Seidel sweep uses new values of earlier own cells and old values of the rest, a Jacobi sweep only old ones; a sweep leaves exactly the solutions of the whole system over all ranks unchanged, and the residual it reports is zero exactly for them; with a diagonally dominant system the error after n preconditionings is at most q^(2n) times the initial one on any partition; with the factorized matrix every rank solves its own rows exactly given its ghosts, and on one rank the whole system.", "quantifier": "all block types and operators, meshes, partitions over ranks, cell numberings, right-hand sides, initial values, sweep directions and numbers of sweeps", "why_tests_cant": "An implicit solver with a wrong off-diagonal term still converges, only slower, so flow tests cannot see it; the property ranges over all meshes, numberings, partitions and operators.", "anchors": ["src/Euler/EulerEvaluator.hxx: LUSGSMatrixVec, LUSGSMatrixToJacobianLU, UpdateLUSGSForward, UpdateLUSGSBackward, UpdateSGS, UpdateSGSWithRec, LUSGSMatrixSolveJacobianLU", "src/Euler/EulerJacobian.hpp: JacobianDiagBlock", "src/Euler/EulerSolver.hxx: doPrecondition"]}
{"id": "C59", "title": "The matrix of the implicit solver is the derivative of the flow equations with frozen dissipation", "statement": "The product of the face Jacobian with an increment is linear, and the matrix built for the factorization is the matrix of that map; without dissipation it is the exact derivative of the flux, as is the matrix written out by hand; in a closed interior cell the row of the matrix applied to the increments is the derivative of the time term plus the cell's outflow, with the wave speeds held fixed, for the single-speed and for Roe's dissipation; a uniform increment of a uniform flow meets only the time term; summed over a mesh without boundary with the cell volumes, the rows leave only the time terms, so increments conserve mass, momentum and energy; Roe's dissipation agrees from both sides of a face and reduces to the single-speed one when all speeds are equal; through a periodic face the stored block acts on the neighbour's value as the block acts on the turned value.", "quantifier": "all states, increments, normals, grid velocities, wave speeds, closed cells, boundary-free meshes, periodic turns, dimensions two and three and numbers of extra scalars", "why_tests_cant": "A wrong Jacobian only slows the convergence of the implicit iteration, so end-to-end tests still pass; the identity must hold for all states and meshes.", "anchors": ["src/Euler/EulerEvaluator.hpp: fluxJacobian0_Right, fluxJacobian0_Right_Times_du, fluxJacobian0_Right_Times_du_AsMatrix, fluxJacobianC_Right_Times_du, UFromOtherCell", "src/Euler/EulerEvaluator.hxx: LUSGSMatrixInit, LUSGSMatrixVec, LUSGSMatrixToJacobianLU", "src/Geom/Mesh.hpp: CellOtherCellPeriodicHandle"]}
{"id": "C60", "title": "The states outside boundary faces make walls tight and let the far field flow undisturbed", "statement": "At a slip wall or symmetry plane the outer state has the interior's density, pressure and tangential velocity and the reversed normal velocity relative to the wall, and under every Roe solver no mass crosses the wall, the force is along the normal and the energy crossing is the work done on the (turning) wall; at a no-slip wall the mean velocity is the wall's, mass and energy are likewise tight, and the turbulence variables take their wall values; a far field or pressure outlet keeps the free stream, lets supersonic outflow pass, imposes the far state on supersonic inflow, and exchanges only the pressure when subsonic, with the imposed pressure never below a twentieth of the far one and positive results; a stagnation inlet has the given total temperature, total pressure and direction.", "quantifier": "all interior and mean states, normals, grid motions, boundary settings, turbulence models, dimensions and Roe solvers", "why_tests_cant": "Boundary errors such as leaking walls show only as slow drifts in long runs; the property ranges over all states and all combinations of options.", "anchors": ["src/Euler/EulerEvaluator_EvaluateDt.hxx: generateBoundaryValue", "src/Euler/EulerEvaluator.hpp: TransformURotatingFrame_ABS_VELO, GetFaceVGrid", "src/Euler/Gas.hpp: RoeFlux_IdealGas_HartenYee, HLLCFlux_IdealGas_HartenYee, HLLEPFlux_IdealGas"]}
{"id": "C61", "title": "Numerical fluxes do not depend on the observer", "statement": "Turning or mirroring the two states, the mean states, the face normal and the grid velocity by the same orthogonal map turns or mirrors the returned flux by that map and changes nothing else, and adding one uniform velocity to the gas and to the face changes the flux only by the mass, momentum and energy carried by that velocity.", "quantifier": "every Riemann-solver option, every pair of states and mean states, every orthogonal map, every uniform velocity, unit normal, grid velocity, gamma and dimension", "why_tests_cant": "The property ranges over all maps and all states; a component mixed up or a speed taken in the wrong frame shows only for oblique faces or moving meshes.", "anchors": ["src/Euler/Gas.hpp: RoeFlux_IdealGas_HartenYee, HLLCFlux_IdealGas_HartenYee, HLLEPFlux_IdealGas, InviscidFlux_IdealGas_Dispatcher"]}
{"id": "C62", "title": "Rotations, local bases and face normals are what their names say", "statement": "RotX, RotY, RotZ and RotateAxis return proper rotations: lengths, angles and the hand are kept, the axis is fixed, the turn is right-handed by the given angle (degrees, or the length of the axis vector in radians), angles about one axis add and the opposite turn undoes it; the local base built from a unit normal is orthonormal, right-handed and begins with the normal; the normal computed from a face Jacobian is at right angles to the face, as long as the area element, on the agreed side, and refused exactly when the Jacobian is not that of a face; the matrix of a cross product multiplies like the cross product and back.", "quantifier": "all angles, axes, unit normals, Jacobians and vectors", "why_tests_cant": "The statements range over all real vectors and angles, including normals close to the switching direction and axes of any length.", "anchors": ["src/Geom/Geometric.hpp: FacialJacobianToNormVec, NormBuildLocalBaseV, RotX, RotY, RotZ, RotateAxis, CrossVecToMat, CrossMatToVec"]}
{"id": "C63", "title": "The table of boundary conditions holds what the configuration says", "statement": "A list of boundary conditions is accepted exactly when every type is known, every state has the right number of entries and all names are new and different; the k-th condition then has id 20+k, is found under its name and its id with its type, state, extra values and options (zero when absent), and nothing else changes; reading in pieces equals reading the whole; writing the table and reading it back gives the same table; every option the flow solver demands of a boundary is present.", "quantifier": "all lists of conditions, numbers of variables, option values and iteration orders of the hash tables", "why_tests_cant": "It ranges over all configurations and all hash orders; a lost option shows only after a restart from the written configuration.", "anchors": ["src/Euler/EulerBC.hpp: BoundaryHandler, from_json, to_json, GetIDFromName, GetNameFormID, GetTypeFromID, GetValueFromID, GetFlagFromID, GetFlagFromIDSoft", "src/Geom/BoundaryCondition.hpp: GetFaceName2IDDefault"]}
{"id": "C64", "title": "The angle-of-attack driver steers the lift coefficient to its target", "statement": "The driver remembers exactly the coefficients since the last change of the angle; it changes the angle exactly when the last window of them lies within the threshold of its average (and the start iteration and minimum count are reached), by a relaxed step towards the target with a slope between 0.9 and 10 times the thin-aerofoil value; convergence is reported exactly when the last long window lies within the long threshold of the target; with a linear lift the error shrinks by one minus the relaxation at each change; the inflow is turned by the angle of attack towards the lift axis and lift and drag are the force components across and along it; the force is that on the named boundaries; a lift that is on target stays there.", "quantifier": "all settings, all histories of iterations and lift coefficients, all angles, forces and sets of boundaries", "why_tests_cant": "It ranges over histories of any length and any settings; the NaN needs the lift to meet the target exactly and the truncated threshold only shows as a run that never stops.", "anchors": ["src/Euler/CLDriver.hpp: CLDriver::Update, ConvergedAtTarget, GetAOARotation, GetCL0Direction, GetCD0Direction, GetForce2CoeffRatio", "src/Euler/EulerEvaluator.hpp: CLDriverGetIntegrationUpdate"]}
{"id": "C65", "title": "Boundary integrals, anchor points and radial profiles record what the faces carry", "statement": "A boundary integral is the sum over all faces of all ranks; an anchored boundary takes on every rank the value at the nearest point of any rank; a profile shares each face's area and area-weighted value out to the bins in proportion to the overlap, loses nothing, is the same however the faces are spread over the ranks, and what is read from it is an area-weighted mean between the least and greatest values; the radial-equilibrium pressure solves dp/dr = rho vt^2/r between bin middles and is exact for solid-body swirl; graded nodes run from end to end, increase, are symmetric and have the wanted first width.", "quantifier": "all faces, values, areas, node distributions, numbers of ranks and ways of distributing the faces", "why_tests_cant": "It ranges over all face sets and distributions over ranks; the NaNs need a face at one radius or an uncovered bin.", "anchors": ["src/Euler/EulerBC.hpp: IntegrationRecorder, AnchorPointRecorder, OneDimProfile", "src/Euler/EulerEvaluator.hxx: updateBCProfiles, updateBCProfilesPressureRadialEq", "src/Geom/Grid.hpp: GetTanhDistributionBilateral"]}
{"id": "C66", "title": "Elevating a mesh puts exactly one node in the middle of every edge, face and cell", "statement": "Elevating a first-order mesh keeps every cell, node and boundary element where it is and gives each cell the nodes of the second-order type. Cells with the same nodes around a new node share it, on whatever ranks they are, and different nodes around mean different new nodes; no node is left unused. A new node lies in the middle of the nodes around it, as the cell sees them through its periods. Boundary elements become the face they lie on. A complete conforming mesh with enough layers in periodic directions is elevated without failure. Moving new nodes onto a smooth boundary gives the same point from every face, keeps straight edges and flat faces, and stays close to the edge.", "quantifier": "all meshes of any size and mix of first-order cells, all distributions over ranks, all periodic transformations, all normals", "why_tests_cant": "Sharing must hold for every pair of cells and every distribution; the failures need exactly one or two layers of cells in a periodic direction.", "anchors": ["src/Geom/Mesh_Elevation.cpp: UnstructuredMesh::BuildO2FromO1Elevation, HermiteInterpolateMidPointOnLine2WithNorm, HermiteInterpolateMidPointOnQuad4WithNorm", "src/Geom/Elements.hpp: ExtractElevNodeSpanNodes"]}
{"id": "C67", "title": "Bisecting a second-order mesh cuts it into first-order cells that fit", "statement": "Bisecting a second-order mesh cuts every cell and boundary element into first-order ones on the same nodes. Every rank keeps its nodes and holds exactly the pieces of its own cells; pieces have distinct nodes, no node is lost, and a piece sees its nodes through the periods where the cell saw them. Within a cell every face of a piece lies against exactly one other piece or on the skin; across a face two cells have the same pieces in opposite senses, so a conforming mesh stays conforming, also through elevation and bisection together. Where there is a choice the shortest diagonal is taken. Pieces of boundary elements are faces of pieces of their cell. Pieces of straight triangles and tetrahedra have equal shares of the volume, and pieces of any triangle, quadrilateral or tetrahedron fill the volume inside its cut faces. A complete second-order mesh, and any mesh just elevated, is bisected without failure.", "quantifier": "all second-order meshes of any size and mix of cells, all distributions over ranks, all node positions and periodic transformations", "why_tests_cant": "Fitting must hold for every pair of cells, every numbering of the common face and every choice of diagonals, which depends on the positions of the nodes.", "anchors": ["src/Geom/Mesh_Elevation.cpp: UnstructuredMesh::BuildBisectO1FormO2", "src/Geom/Elements.hpp: GetO2ElemBisectVariant, ExtractO2BisectElemNodes, GetO2ElemBisectElem"]}
{"id": "C68", "title": "A polyMesh of hexahedra becomes cells and boundary elements that fit", "statement": "A polyMesh given by faces, owners, neighbours and patches becomes one hexahedron per cell: whatever the order of the faces of a cell and wherever each starts, the eight nodes come out so that the faces of the hexahedron are the faces of the cell seen from outside. The two cells of an inner face see it in opposite senses. The boundary elements are the faces without neighbour in their order, each a face of its cell seen from outside, with the zone of its patch; none is left without a zone. Cells with other faces than six quadrilaterals are refused.", "quantifier": "all polyMeshes of any size, all orders and starting points of faces, all numberings of cells and nodes, all divisions of the boundary into patches and tables of names", "why_tests_cant": "The order of the nodes is found by a search over the faces whose outcome depends on their order, their starting points and which of them the cell owns; there are hundreds of thousands of combinations per cell.", "anchors": ["src/Geom/OpenFOAMMesh.hpp: ExtractTopologicalElementFromPolyMeshCell, OpenFOAMConverter::BuildFaceElemInfo, BuildCell2Face, BuildCell2Node", "src/Geom/Mesh_Serial_ReadFromCGNS.cpp: UnstructuredMeshSerialRW::ReadFromOpenFOAMAndConvertSerial"]}
{"id": "C69", "title": "The exported VTK file shows the mesh", "statement": "The VTK file written in parallel contains every node once where it is, and once more for each combination of periods by which some cell needs it moved, there. Every cell is in it once, under its number, with the VTK type of its shape and order, its points in the order VTK prescribes and at the places of its corners; two corners share a point if and only if they are the same node moved by the same periods. All datasets are full, the offsets start at 0 and end at the size of the connectivity, and values given for cells and nodes are found at those cells and at all points of those nodes. The file does not depend on the order in which the ranks write.", "quantifier": "all meshes of all cell types, all distributions over ranks with their ghost nodes, periodic or not with any moved corners, all orders of the ranks' writes, all data", "why_tests_cant": "Which moved copies exist is decided by corners of cells on other ranks; numbers of points come from prefix sums over ranks and bits, and slabs of the file from several more. A wrong case shows only in particular distributions.", "anchors": ["src/Geom/Mesh_Serial_BuildCell2Cell.cpp: UnstructuredMesh::RecreatePeriodicNodes, BuildVTKConnectivity", "src/Geom/Elements.hpp: ToVTKVertsAndData", "src/Geom/Mesh_Plts.cpp: H5_WriteDataset, UnstructuredMesh::PrintParallelVTKHDFDataArray"]}
{"id": "C70", "title": "The time loop keeps the clock and writes each file when due", "statement": "A run moves its clock strictly forward, never past the end time, and ends at the end time or after the last step allowed; with enough steps for its shortest step it reaches the end time. The clock is the sum of the lengths by which the flow was advanced. A file is written at each whole multiple of the time interval before the end and at the end, exactly at that time, once and in order. Numbered data, average and restart files and log lines come exactly after the steps that are multiples of their intervals; the ones that are written over are left out, when so asked, if the numbered one is written at that step. A file carries the time of its step and holds the flow of its step, or the mean of the flows weighted by the lengths of the steps. No step is longer than settings and flow allow. No accepted settings make the run fail on the way, and a restarted run goes on where the old one stopped.", "quantifier": "all settings of steps, intervals, limits and schemes; all flows, seen as the sequence of step limits and states they give; runs of any length", "why_tests_cant": "Output times, step limits and stopping interact: a step is cut or stretched to meet an output time, limits follow from the last step, and the end is itself an output time. Tests look at a few combinations.", "anchors": ["src/Euler/EulerSolver.hxx: EulerSolver::RunImplicitEuler main loop, InitializeRunningEnvironment", "src/Euler/EulerSolver_Init.hxx: functor_fmainloop", "src/Euler/EulerSolver.hpp: TimeMarchControl, OutputControl, ReadRestart", "src/Euler/EulerEvaluator.hxx: TimeAverageAddition"]}
{"id": "C71", "title": "The text files of an OpenFOAM mesh are read as written", "statement": "Reading the owner, neighbour, faces, points or boundary file of an OpenFOAM mesh gives exactly the labels, faces, points or patches the file lists, in order, whatever the header, the spaces and the comments between them. A file whose count does not match its list, that ends too soon, or that holds something other than numbers is refused.", "quantifier": "all files in the grammar of a header, a count and a list, with any placement of spaces, line comments and block comments; all lengths; for the boundary, all patches with distinct names", "why_tests_cant": "Texts are unbounded and the reader mixes hand-written skipping of blanks with the error states of C++ streams. Sample meshes use one layout.", "anchors": ["src/Geom/OpenFOAMMesh.hpp: passOpenFOAMSpaces, getUntil, readOpenFOAMList, readOpenFOAMObj, readOpenFOAMHeader, OpenFOAMReader::ReadPoints, ReadFaces, ReadOwner, ReadNeighbour, ReadBoundary"]}
{"id": "C72", "title": "Inner iterations stop when converged, follow the CFL ramp and write what is due", "statement": "The inner iterations of a stage stop at the first iteration, not before the least number asked for, whose density residual relative to the largest one so far in the stage is below the threshold (and, with a lift driver, at its target), or after the most iterations allowed. Every stage starts with the first CFL number; once the given number of iterations is done the CFL number rises geometrically to its last value over the given length and stays there. Log lines, data files and restart files come exactly after the iterations that are multiples of their intervals, a line also at the end of the stage, each for an iteration that was performed. No accepted settings make the iterations fail.", "quantifier": "all settings of intervals, limits, thresholds and ramps; all sequences of residuals; all schemes, seen by how they drive their stages; any number of stages and iterations", "why_tests_cant": "Stop, ramp, reset and output share one callback that schemes call in different ways, and the outcome depends on where convergence falls relative to the ramp, the limits and the intervals.", "anchors": ["src/Euler/EulerSolver_Init.hxx: EulerSolver::functor_fstop", "src/Euler/EulerSolver.hxx: EulerSolver::RunImplicitEuler", "src/Euler/EulerSolver.hpp: ConvergenceControl, ImplicitCFLControl, OutputControl", "src/Solver/ODE.hpp: ImplicitEulerDualTimeStep::Step, ImplicitSDIRK4DualTimeStep::Step, ImplicitBDFDualTimeStep::Step, ImplicitVBDFDualTimeStep::Step, ImplicitHermite3SimpleJacobianDualStep::Step"]}
{"id": "C73", "title": "The logs of a run can be read back as tables", "statement": "The convergence log, read as comma-separated values, has one row of titles and one row for each line the solver wrote, each row with a field for every title. A title that asks for a vector gets one column per entry. Under each title stands the value which the named number had when the line was written: integers in decimal digits, other numbers at the chosen precision, -1 for stage and iteration in the line of a time step, and 0 for a name the solver does not know. Each integrated boundary has a table of its own, with step, stage, iteration and its integrals in a row for each line.", "quantifier": "all lists of titles, all numbers of variables, all histories of inner and time-step lines with all values, all sets of integrated boundaries", "why_tests_cant": "A field that keeps an old value, a name that hides another or a title holding a separator shows only for particular titles and histories, and a log that looks like a table is rarely checked entry by entry.", "anchors": ["src/DNDS/CsvLog.hpp: LogSimpleDIValue, CsvLog::WriteLine, CsvLog::WriteTitle", "src/Euler/EulerSolver.hpp: EulerSolver::FillLogValue, EulerSolver::LogErrInitialize", "src/Euler/EulerSolver_Init.hxx: EulerSolver::functor_fstop, EulerSolver::functor_fmainloop", "src/Euler/EulerEvaluator.hpp: EulerEvaluator::BndIntegrationLogWriteLine"]}
{"id": "C74", "title": "The settings in effect are the defaults, changed by the user's file, changed by the command line", "statement": "A setting overwritten on the command line has the value given there, the last one if several are given. Otherwise it has the value in the user's file, and if that does not mention it, its default. A run that starts has every setting it reads; a file that removes one stops the run, and a file that only changes settings, with overwritings of existing settings, is accepted. A key on the command line means the path it spells, with / and ~ escaped.", "quantifier": "all documents of defaults and of the user, all lists of keys and values on the command line, all names and paths", "why_tests_cant": "Merging and overwriting act on documents of any shape and depth in any combination; a setting that silently keeps or loses a value shows only in the run that depends on it.", "anchors": ["src/Euler/EulerSolver.hpp: EulerSolver::ConfigureFromJson, EulerSolver::Configuration::ReadWriteJson", "src/DNDS/JsonUtil.hpp: __DNDS__json_to_config", "src/Euler/SingleBlockApp.hpp: RunSingleBlockConsoleApp"]}
{"id": "C75", "title": "A run starts again from what was written, and a crash does not cost the restart before", "statement": "When all ranks have written a restart, in whatever order they get to it, the printed settings name it and each rank reads its own field back; another number of ranks or a name of unknown format is refused. Restarts of different steps, inner iterations, formats or numbers of ranks have different names, and while one is written, and wherever that is broken off, the others read as before. After a crash at any point the printed settings name a restart that is whole. From the restart of another solver exactly the listed components of every cell are taken; another mesh or a component out of range is refused.", "quantifier": "all base names, formats, numbers of ranks, fields, former contents of the disk, interleavings of the ranks and crash points; all lists of components", "why_tests_cant": "What is on the disk after a crash depends on how far each rank had come; a test sees one interleaving that was not broken off.", "anchors": ["src/Euler/EulerSolver.hpp: EulerSolver::ReadRestart, ReadRestartOtherSolver, PrintRestart, PrintConfig", "src/Euler/EulerSolver_Init.hxx: calls of PrintRestart", "src/DNDS/ArrayPair.hpp: ArrayPair::WriteSerialize, ReadSerialize", "src/DNDS/SerializerJSON.cpp: SerializerJSON::OpenFile, CloseFile", "src/DNDS/Defines.hpp: sstringHasSuffix"]}
