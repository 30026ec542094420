{"id": "C01", "title": "Base64 output is exactly the RFC 4648 encoding", "statement": "For every byte sequence, encodeAsBase64 writes exactly the RFC 4648 Base64 text of that sequence (alphabet, grouping and '=' padding), it writes exactly getBase64EncodingSize characters, and the text does not depend on whether the scalar or the AVX2 path is taken, nor on how the input is split between threads.", "quantifier": "all byte sequences of any length, all ways of cutting the input into multiple-of-three chunks, both code paths", "why_tests_cant": "The input space is infinite and the SIMD/scalar boundary depends on length and alignment; example-based tests only visit a few lengths.", "anchors": ["include/l3ster/util/Base64.hpp: encodeAsBase64, encB64SerialImpl, encB64Remainder, encB64SimdImpl, alignForSimd, getBase64EncodingSize"]}
{"id": "C02", "title": "Base64 output can be decoded back", "statement": "Decoding the text produced by encodeAsBase64 with the standard decoder yields the original bytes; in particular two different inputs never give the same text.", "quantifier": "all byte sequences of any length", "why_tests_cant": "Injectivity is a statement about all pairs of inputs.", "anchors": ["include/l3ster/util/Base64.hpp: encodeAsBase64"]}
{"id": "C03", "title": "A DynamicBitset behaves like an array of booleans", "statement": "After any sequence of set, reset, flip, assign, clear and growing resize calls with in-range positions, test(i) returns what an array of booleans subjected to the same calls would hold at i, size() is the array length and count() is the number of true entries.", "quantifier": "all initial sizes, all finite call histories, all positions", "why_tests_cant": "The claim is about every call history; word/bit packing errors show up only at particular positions and sizes.", "anchors": ["include/l3ster/util/DynamicBitset.hpp: DynamicBitset"]}
{"id": "C04", "title": "Counting a bitset sub-range", "statement": "getSubView(b,e).count() is the number of true entries at positions b <= i < e, for every b <= e <= size().", "quantifier": "all bitset contents, all sub-ranges (within a word, at word borders, over many words)", "why_tests_cant": "The three-case mask logic has infinitely many (begin,end) alignments.", "anchors": ["include/l3ster/util/DynamicBitset.hpp: SubView::count"]}
{"id": "C05", "title": "Concurrent atomic updates of a bitset are never lost", "statement": "When several threads apply set/reset/flip through AtomicView concurrently, every interleaving leaves each bit as if the operations on that bit had been executed one after another in some order consistent with every thread; when all operations are sets the final content is the same for every interleaving.", "quantifier": "all programs of all threads, all interleavings, all initial contents", "why_tests_cant": "Schedules cannot be enumerated by tests, and bits share machine words.", "anchors": ["include/l3ster/util/DynamicBitset.hpp: AtomicView"]}
{"id": "C06", "title": "Shrinking a bitset discards the discarded bits", "statement": "After resize(n) only the first n flags are visible: count() equals the number of true flags below size(), and growing again exposes false flags.", "quantifier": "all contents, all sequences of resize calls", "why_tests_cant": "Depends on the history of sizes relative to the 64-bit word boundary.", "anchors": ["include/l3ster/util/DynamicBitset.hpp: resize, count"]}
{"id": "C07", "title": "Local and global indices are inverse bijections", "statement": "For an ownership description built from a contiguous owned range and a list of distinct shared ids, getGlobalIndex maps 0..localSize()-1 one-to-one onto owned plus shared ids, owned ids first, and getLocalIndex is its inverse; construction throws iff a shared id is owned.", "quantifier": "all owned ranges, all lists of distinct shared ids in any order, all ids", "why_tests_cant": "All index sets of all sizes; binary search correctness for every position.", "anchors": ["include/l3ster/util/SegmentedOwnership.hpp: SegmentedOwnership, getLocalIndex, getGlobalIndex"]}
{"id": "C08", "title": "The owner lookup finds the rank owning an index", "statement": "Given how many indices each rank owns, the rank computed for a global index is the unique rank whose owned range contains it, also when some ranks own nothing.", "quantifier": "all communicator sizes, all distributions of indices to ranks, all indices below the global count", "why_tests_cant": "Empty ranks and range borders are corner cases across all distributions.", "anchors": ["include/l3ster/util/SegmentedOwnership.hpp: getOwnershipDist, computeOutNbrInfo", "include/l3ster/algsys/SparsityGraph.hpp: makeDofToOwnerMap", "include/l3ster/bcs/PeriodicBC.hpp: scatterMatched"]}
{"id": "C09", "title": "Neighbour information is mutually consistent", "statement": "After the neighbour exchange, rank a lists index i as needed by rank b iff i is owned by a and shared by b, and both sides list the indices of a pair of ranks in the same order; every message posted is received.", "quantifier": "all communicator sizes, all ownership descriptions", "why_tests_cant": "Property of a whole distributed protocol over all rank counts and index sets.", "anchors": ["include/l3ster/util/SegmentedOwnership.hpp: computeInNbrInfo, computeOutNbrInfo", "include/l3ster/comm/ImportExport.hpp: ImportExportContext"]}
{"id": "C10", "title": "Import brings the owner's values to every sharing rank", "statement": "After a blocking import each shared entry, in every vector of the multivector, holds the value stored at the owner rank for that global index; owned entries are unchanged.", "quantifier": "all communicator sizes, all ownerships, all numbers of vectors, strides and values", "why_tests_cant": "Needs all rank counts and all index patterns; tests run on a handful of MPI ranks.", "anchors": ["include/l3ster/comm/ImportExport.hpp: Import::postComms, packSends, postRecvs, postSends", "include/l3ster/comm/ImportExport.hpp: ImportExportContext"]}
{"id": "C11", "title": "Export combines each contribution exactly once", "statement": "After a blocking export each owned entry holds the combination of its old value with the shared value of every rank sharing that index, each exactly once, whatever the order in which messages arrive and threads unpack them.", "quantifier": "all communicator sizes, ownerships, numbers of vectors, values, commutative-associative combine operations, all arrival and unpacking orders", "why_tests_cant": "Message arrival and thread schedules are not controllable by tests.", "anchors": ["include/l3ster/comm/ImportExport.hpp: Export::postRecvs, postSends, unpack, wait"]}
{"id": "C12", "title": "tryReceive reports completion exactly once", "statement": "For each posted import, however many threads call tryReceive concurrently and whatever the interleaving, at most one call returns true, it returns true only after all messages have arrived, and if some call starts after arrival with nobody inside then some call returns true.", "quantifier": "all numbers of threads and calls, all interleavings, all arrival times", "why_tests_cant": "Concurrency property over all schedules.", "anchors": ["include/l3ster/comm/ImportExport.hpp: Import::tryReceive, postComms"]}
{"id": "C13", "title": "Messages of different vectors and objects carry different tags", "statement": "Two messages in flight between the same ranks that belong to different vectors (below 4096) of one import/export object, or to two objects whose creation numbers differ by a non-multiple of 256, have different tags, and every tag is non-negative.", "quantifier": "all object numbers and vector indices", "why_tests_cant": "Quantifies over all pairs; collisions only occur for distant pairs.", "anchors": ["include/l3ster/comm/ImportExport.hpp: ImportExportBase::makeTag, setNumVecs"]}
{"id": "C14", "title": "Accepted import/export buffers are never overrun", "statement": "Once setOwned/setShared accepted the buffers, posting communications touches only memory inside them.", "quantifier": "all sizes, strides, numbers of vectors, and all orders of the configuration calls", "why_tests_cant": "Out-of-bounds access for unusual configuration orders is not exercised by tests.", "anchors": ["include/l3ster/comm/ImportExport.hpp: setOwned, setShared, setNumVecs, isOwnedSizeSufficient, isSharedSizeSufficient"]}
{"id": "C15", "title": "The staggered all-gather delivers every rank's data once", "statement": "Every rank's callback is invoked exactly once for each rank of the communicator, with that rank's data and rank number.", "quantifier": "all communicator sizes, all data sizes (including empty), all data", "why_tests_cant": "All communicator sizes and data lengths; a ring protocol's off-by-one depends on the size.", "anchors": ["include/l3ster/util/Algorithm.hpp: staggeredAllGather"]}
{"id": "C16", "title": "Serialisation round-trips and truncated archives are rejected", "statement": "Deserialising what was serialised yields the same values and consumes exactly the written bytes, for any nesting of trivially copyable values, strings, ranges and maps; a truncated archive raises an error instead of reading outside the buffer.", "quantifier": "all values, all sequences of values, all truncation points", "why_tests_cant": "All nestings, lengths and cut points.", "anchors": ["include/l3ster/util/Serialization.hpp: serialize, deserialize"]}
{"id": "C17", "title": "A mesh partition survives serialisation", "statement": "deserializeMesh(serializeMesh(m)) has the same domains with the same elements in the same order, the same boundary ids and the same node ownership as m.", "quantifier": "all meshes without empty domains", "why_tests_cant": "Structure is recursive and of arbitrary size.", "anchors": ["include/l3ster/mesh/MeshUtils.hpp: serializeMesh, deserializeMesh"]}
{"id": "C18", "title": "Partitioning loses and duplicates no domain element", "statement": "The parts produced by mesh partitioning together contain every domain element exactly once, in the domain it came from, whatever the graph partitioner answers.", "quantifier": "all meshes, all numbers of parts, all answers of the external partitioner", "why_tests_cant": "The external partitioner's output is unconstrained and tests see only one answer.", "anchors": ["include/l3ster/mesh/PartitionMesh.hpp: makeDomainMaps, partitionMeshImpl"]}
{"id": "C19", "title": "Partitioned nodes have exactly one owner", "statement": "In the partitioned mesh every node is owned by exactly one part, owned ids of part p form a contiguous range directly following those of part p-1, the renumbering of nodes is a bijection applied uniformly to all elements, and each owner has an element containing the node.", "quantifier": "all meshes, all numbers of parts, all partitioner answers", "why_tests_cant": "Holds for all partitioner answers including ones leaving parts without some of their nodes.", "anchors": ["include/l3ster/mesh/PartitionMesh.hpp: assignNodes, reassignDisjointNodes, renumberNodes, makeMeshFromPartitionComponents"]}
{"id": "C20", "title": "Condensing node numbers for the partitioner is lossless", "statement": "The condensation keeps exactly the element-boundary nodes, condensed ids are 0..k-1 in increasing order of node id, un-condensing inverts condensing, and the in-place compaction of weights gives condensed node c the weight of the node it stands for.", "quantifier": "all meshes, all weight vectors", "why_tests_cant": "In-place array compaction must be right for every pattern of kept nodes.", "anchors": ["include/l3ster/mesh/PartitionMesh.hpp: makeNodeCondensationMaps, condenseNodeWeights, uncondenseNodes"]}
{"id": "C21", "title": "Boundary elements follow their parent element", "statement": "After partitioning every boundary element is in exactly one part, namely one that contains the domain element whose side it is; if some boundary element is not the side of exactly one domain element the partitioner throws.", "quantifier": "all meshes", "why_tests_cant": "Needs all meshes, including ones with interfaces and stray boundary elements.", "anchors": ["include/l3ster/mesh/PartitionMesh.hpp: assignBoundaryElements"]}
{"id": "C22", "title": "Merging meshes renumbers nodes and elements consistently", "statement": "merge gives the nodes of the second mesh that coincide with nodes of the first the number of the coincident node, numbers the remaining ones consecutively after the first mesh's nodes without gaps or clashes, and leaves element ids unique and contiguous, preserving their relative order.", "quantifier": "all pairs of meshes, all sets of coincident nodes, all sets of removed faces", "why_tests_cant": "All interleavings of matched and unmatched nodes.", "anchors": ["include/l3ster/mesh/MeshUtils.hpp: merge, translateElement, fixElementIds"]}
{"id": "C23", "title": "Extruded meshes are conforming", "statement": "extrude makes one element per 2D element and layer, element ids are unique and contiguous, node ids are those of layer k shifted by k times the number of nodes per layer, elements stacked on each other share exactly the nodes of the common face, and the front/back boundaries hold exactly the first/last layer faces.", "quantifier": "all 2D meshes, all numbers of layers", "why_tests_cant": "All sizes of mesh and numbers of layers.", "anchors": ["include/l3ster/mesh/MeshUtils.hpp: extrude"]}
{"id": "C24", "title": "makeSquareMesh produces a valid structured mesh", "statement": "For every pair of coordinate arrays the node ids used are exactly 0..nx*ny-1, element ids are 0..n-1 in order of creation, coordinates belong to the node they are attached to, and each boundary element is an edge of exactly one quadrilateral and each interior edge is shared by two.", "quantifier": "all numbers of grid lines in x and y", "why_tests_cant": "Unbounded grid sizes; the asymmetric row/column index formulas are only exercised for small grids.", "anchors": ["include/l3ster/mesh/primitives/SquareMesh.hpp: makeSquareMesh", "include/l3ster/mesh/primitives/LineMesh.hpp: makeLineMesh"]}
{"id": "C25", "title": "makeCubeMesh produces a valid structured mesh", "statement": "For every triple of coordinate arrays node ids used are exactly 0..nx*ny*nz-1, element ids are unique and contiguous, and each boundary element is a face of exactly one hexahedron.", "quantifier": "all numbers of grid lines in x, y and z", "why_tests_cant": "Unbounded grid sizes.", "anchors": ["include/l3ster/mesh/primitives/CubeMesh.hpp: makeCubeMesh"]}
{"id": "C26", "title": "Element sides and interiors are indexed correctly for every order", "statement": "For lines, quads and hexes of any order, the per-side node index lists contain exactly the nodes lying on that side, boundary indices are their sorted union, internal indices are the complement, and the number of internal nodes is (order-1)^dim.", "quantifier": "all element orders, all element types", "why_tests_cant": "Tables are computed from the order; tests instantiate few orders.", "anchors": ["include/l3ster/mesh/ElementTraits.hpp: ElementTraits, makeBoundaryNodeInds, makeInternalNodeInds"]}
{"id": "C27", "title": "Finding an element by id", "statement": "find(id) returns the element with that id whenever the mesh holds one and nothing otherwise, provided ids ascend within each element vector.", "quantifier": "all meshes, all ids", "why_tests_cant": "The contiguous-id shortcut and the binary search must agree for every id pattern.", "anchors": ["include/l3ster/mesh/MeshPartition.hpp: findImpl"]}
{"id": "C28", "title": "Connected components of the periodic graph are right", "statement": "getComponentsUndirected partitions the vertices, and two vertices are in the same component iff a path connects them; every vertex reachable from the start is visited exactly once by depthFirstSearch.", "quantifier": "all graphs", "why_tests_cant": "Reachability over all graphs of all sizes.", "anchors": ["include/l3ster/util/Algorithm.hpp: depthFirstSearch, getComponentsUndirected"]}
{"id": "C29", "title": "CRS graphs built from edge lists hold exactly the edges", "statement": "makeCrsGraph(src,dest) has an edge u-v exactly once if the pair occurs in the lists (in either direction when undirected) and not at all otherwise, rows are sorted and delimited correctly and no entry is left uninitialised.", "quantifier": "all edge lists, directed and undirected", "why_tests_cant": "Row offsets and filling must be right for every edge order, degree distribution and hash-table iteration order.", "anchors": ["include/l3ster/util/Algorithm.hpp: makeCrsGraph", "include/l3ster/util/CrsGraph.hpp: CrsGraph"]}
{"id": "C30", "title": "Permutation helpers", "statement": "sortingPermutation returns a permutation that sorts, copyPermuted applies it, matchingPermutation returns for each element the position of an equal element, and sortRemoveDup leaves the strictly increasing list of the distinct elements.", "quantifier": "all sequences", "why_tests_cant": "All sequences of all lengths including duplicates.", "anchors": ["include/l3ster/util/Algorithm.hpp: sortingPermutation, copyPermuted, matchingPermutation, sortRemoveDup"]}
{"id": "C31", "title": "Index maps invert the sequence they were built from", "statement": "IndexMap built from distinct keys returns the position of every key and throws for absent keys; invertMap of an injective map is its inverse.", "quantifier": "all key sequences", "why_tests_cant": "All key sets.", "anchors": ["include/l3ster/util/IndexMap.hpp: IndexMap", "include/l3ster/util/Algorithm.hpp: invertMap"]}
{"id": "C32", "title": "Checked integer narrowing", "statement": "exactIntegerCast returns the same mathematical value or throws; it throws exactly when the value is not representable in the target type.", "quantifier": "all pairs of integer types and all values", "why_tests_cant": "All type pairs and values including negative boundary values.", "anchors": ["include/l3ster/util/Common.hpp: exactIntegerCast"]}
{"id": "C33", "title": "The spatial hash never misses a close point", "statement": "proximate(x) yields every inserted point whose distance from x is smaller than the cell size in each coordinate, each exactly once.", "quantifier": "all point sets, all cell sizes and origins, all query points", "why_tests_cant": "Rounding at cell borders has infinitely many cases.", "anchors": ["include/l3ster/util/SpatialHashTable.hpp: SpatialHashTable::insert, proximate"]}
{"id": "C34", "title": "Parallel reduction equals the sequential one", "statement": "parallelTransformReduce returns the sequential left fold of the transformed elements for any associative and commutative operation with the given identity, whatever way the runtime splits the range and combines partial results; parallelFor and parallelTransform apply the kernel exactly once per element.", "quantifier": "all ranges, all associative and commutative operations, all splitting trees", "why_tests_cant": "Splitting is chosen by the scheduler.", "anchors": ["include/l3ster/util/TbbUtils.hpp: parallelTransformReduce, parallelFor, parallelTransform"]}
{"id": "C35", "title": "Local element views reproduce the element's nodes", "statement": "The node list reconstructed by getLocalNodes equals the local indices of the element's nodes in order, whenever construction of the view succeeds.", "quantifier": "all elements with distinct nodes, all ownerships", "why_tests_cant": "The compressed representation of interior nodes must be lossless for every numbering.", "anchors": ["include/l3ster/mesh/LocalMeshView.hpp: LocalElementView"]}
{"id": "C36", "title": "Element reordering is a permutation", "statement": "reorderByAdjacency returns every element exactly once, whatever the connectivity and cache model answers.", "quantifier": "all meshes and adjacency structures", "why_tests_cant": "Greedy heuristic with a dynamic frontier; must hold for disconnected and degenerate graphs.", "anchors": ["include/l3ster/mesh/LocalMeshView.hpp: reorderByAdjacency"]}
{"id": "C37", "title": "Splitting a partition by a predicate keeps every element and node owner", "statement": "splitMeshPartition puts each domain element in exactly one half according to the predicate, each boundary element in the half of its parent, and each half owns exactly the owned nodes assigned to it.", "quantifier": "all meshes, all predicates", "why_tests_cant": "All predicates, in particular those selecting non-contiguous nodes.", "anchors": ["include/l3ster/mesh/SplitMesh.hpp: splitMeshPartition, makeMesh"]}
{"id": "C38", "title": "Redistributing partitions over ranks keeps the mesh", "statement": "After the mesh parts are permuted among ranks to match the machine topology, two element vertices denote the same node iff they did before, and owned ids are again contiguous in rank order.", "quantifier": "all communicator sizes, all rank permutations, all partitioned meshes", "why_tests_cant": "Rank permutations are chosen by the MPI library from the machine topology; tests on one machine see the identity.", "anchors": ["include/l3ster/comm/DistributeMesh.hpp: invertPermutation, establishNewNodeIds, permuteMesh, optimizeMeshDistribution"]}
{"id": "C39", "title": "Degrees of freedom are numbered without gaps or clashes", "statement": "Each active (node, component) pair gets exactly one global number, different pairs get different numbers, the numbers are 0..N-1 with each rank's owned numbers contiguous and in rank order, and every rank sharing a node sees the number given by the owner.", "quantifier": "all partitioned meshes, all problem definitions, all communicator sizes", "why_tests_cant": "Distributed numbering over all meshes and rank counts.", "anchors": ["include/l3ster/dofs/NodeToDofMap.hpp: NodeToGlobalDofMap, computeNumOwnedDofs, computeBaseDof, computeOwnedDofs, communicateSharedDofs"]}
{"id": "C40", "title": "Periodic nodes share their degrees of freedom", "statement": "Nodes identified by a periodic boundary condition, directly or through a chain of identifications, get the same global number for the components concerned, and other components are unaffected.", "quantifier": "all identifications, all chains, all communicator sizes", "why_tests_cant": "Chains of identifications across ranks (corners, edges) of any length.", "anchors": ["include/l3ster/bcs/PeriodicBC.hpp: getComponents, scatterMatched, PeriodicBC", "include/l3ster/dofs/NodeToDofMap.hpp: fixPeriodicDofs"]}
{"id": "C41", "title": "The sparsity pattern is exactly the union of element couplings", "statement": "The row of an owned degree of freedom contains a column iff some element on some rank couples the two, sorted and without duplicates; the parallel filling of rows gives the same result for every schedule.", "quantifier": "all meshes, problem definitions, rank counts and thread schedules", "why_tests_cant": "Races on shared row cursors and remote contributions over all schedules.", "anchors": ["include/l3ster/algsys/SparsityGraph.hpp: computeLocalGraph, serializeSharedGraph, appendSharedFromSerial"]}
{"id": "C42", "title": "Static condensation addresses the right entries", "statement": "When an element system is condensed, row and column k of the element matrix is added at the position that the (node, component) pair of unknown k occupies in the element's list of primary or interior unknowns.", "quantifier": "all element orders, all sets of active components (in any order), all activity patterns on boundary nodes", "why_tests_cant": "Index bookkeeping over all orders and component subsets.", "anchors": ["include/l3ster/algsys/StaticCondensationManager.hpp: computeLocalDofInds, condenseSystemImpl", "include/l3ster/dofs/DofsFromNodes.hpp: getDofsFromNodes"]}
{"id": "C43", "title": "Static condensation does not change the solution", "statement": "Solving the condensed system and recovering the interior values solves the full system, and conversely, for every symmetric element matrix with invertible interior block.", "quantifier": "all block sizes, all symmetric matrices with invertible interior block, all right-hand sides", "why_tests_cant": "Algebraic identity over all matrices.", "anchors": ["include/l3ster/algsys/StaticCondensationManager.hpp: endAssemblyImpl, recoverSolutionImpl"]}
{"id": "C44", "title": "Batching of local updates does not change the element system", "statement": "After any sequence of quadrature-point updates the element system is the weighted sum of all updates, independent of the batch size and of the sign pattern of the weights, and systems of consecutive elements do not influence each other.", "quantifier": "all sequences of updates, all batch sizes, all weights", "why_tests_cant": "Batch boundaries interact with the number and sign of weights for every length; leftover state after an exception.", "anchors": ["include/l3ster/algsys/AssembleLocalSystem.hpp: LocalSystemManager::update, flush, getSystem, setZero"]}
{"id": "C45", "title": "Nodal values set from several ranks are averaged over all contributions", "statement": "Setting nodal values in parallel gives each node the mean of all contributions made on all ranks, keeps nodes without contribution unchanged, and for a constant value gives exactly this value.", "quantifier": "all rank counts, ownerships, contributions and message orders", "why_tests_cant": "Depends on the order of posting counts and computing them across ranks.", "anchors": ["include/l3ster/algsys/ComputeValuesAtNodes.hpp: averageElementContributions, computeValuesAtNodes, exchangeElementContributions, updateNodeVals"]}
{"id": "C46", "title": "Fixed-capacity vectors behave like lists", "statement": "Any sequence of push, pop, erase and resize within the capacity leaves the vector equal to the corresponding list.", "quantifier": "all operation histories within the capacity", "why_tests_cant": "All histories.", "anchors": ["include/l3ster/util/StaticVector.hpp: StaticVector"]}
{"id": "C47", "title": "A heterogeneous vector is visited completely and indexed consistently", "statement": "visit calls the functor exactly once for each element of each contained vector, size() is the total number of elements, and at(i) enumerates the elements in visiting order.", "quantifier": "all contents", "why_tests_cant": "All combinations of lengths, empty vectors included.", "anchors": ["include/l3ster/util/UniVector.hpp: visit, at, find, size, transformReduce"]}
{"id": "C48", "title": "Scoped parallelism limits nest correctly", "statement": "While guards are alive the limit is the minimum of all requested limits and the hardware limit, and after the guards are destroyed in reverse order the limit is what it was before.", "quantifier": "all nestings of guards", "why_tests_cant": "All nesting depths and requested limits.", "anchors": ["include/l3ster/util/ScopeGuards.hpp: MaxParallelismGuard"]}
{"id": "C49", "title": "MPI and Kokkos are initialised and finalised exactly once", "statement": "Over the life of any set of scope guards, including moves, the library is finalised exactly once iff a guard initialised it, and never by a guard that did not.", "quantifier": "all sequences of construction, move construction, move assignment and destruction of guards", "why_tests_cant": "All histories of guard operations.", "anchors": ["include/l3ster/util/ScopeGuards.hpp: MpiScopeGuard, KokkosScopeGuard"]}
{"id": "C50", "title": "Gmsh quads and hexes are imported with correct vertex order", "statement": "The imported quad has the vertices of the gmsh quad in lexicographic order with coordinates attached to the right vertices, adjacent vertices stay adjacent, and the orientation normal has non-negative z.", "quantifier": "all vertex ids and coordinates", "why_tests_cant": "All coordinates, in particular clockwise and degenerate quads.", "anchors": ["include/l3ster/mesh/ReadMesh.hpp: makeElementFromNodeData"]}
{"id": "C51", "title": "Polynomials: evaluation, derivative and integral", "statement": "evaluate is the value of the polynomial with the stored coefficients (highest first), derivative and integral evaluate to the derivative and an antiderivative, and the product evaluates to the product.", "quantifier": "all coefficients, orders and arguments (exact arithmetic)", "why_tests_cant": "All orders and arguments.", "anchors": ["include/l3ster/math/Polynomial.hpp: evaluate, derivative, integral, operator*"]}
{"id": "C52", "title": "Lagrange interpolation goes through the given points", "statement": "lagrangeInterp(x,y) evaluates to y[i] at x[i] for every i when the x are distinct.", "quantifier": "all numbers of points, all distinct abscissae, all values (exact arithmetic)", "why_tests_cant": "All point sets.", "anchors": ["include/l3ster/math/LagrangeInterpolation.hpp: lagrangeInterp"]}
{"id": "C53", "title": "Legendre polynomials satisfy the Legendre recurrence for every order", "statement": "getLegendrePolynomial<N> evaluates to P_N(x) defined by Bonnet's recurrence, for every N; in particular its value at 1 is 1.", "quantifier": "all N and x (exact arithmetic)", "why_tests_cant": "All orders.", "anchors": ["include/l3ster/math/Legendre.hpp: getLegendrePolynomial"]}
{"id": "C54", "title": "Dirichlet conditions are imposed without changing the other equations", "statement": "After applying Dirichlet conditions a vector solves the modified system iff its constrained entries have the prescribed values and it satisfies all original unconstrained equations; a symmetric matrix stays symmetric.", "quantifier": "all sparse matrices with diagonal entries, all sets of constrained unknowns, all prescribed values", "why_tests_cant": "Algebraic equivalence for all matrices and sets.", "anchors": ["include/l3ster/bcs/DirichletBC.hpp: DirichletBCAlgebraic", "include/l3ster/bcs/LocalDirichletBC.hpp"]}
{"id": "C55", "title": "One-dimensional grids have the requested end points", "statement": "linspace, geomspace and the geometric progression helper return the requested number of points, start and end at the requested values and are strictly monotone.", "quantifier": "all end points, numbers of points and ratios (exact arithmetic)", "why_tests_cant": "All parameters.", "anchors": ["include/l3ster/util/Common.hpp: linspaceArray, linspace, geomspace, geomSpaceProg"]}
{"id": "C56", "title": "Boundary views point at the right side of the right element", "statement": "For every boundary element makeBoundaryElementViews produces one view, naming a domain element of the next dimension and one of its sides whose nodes are exactly the boundary element's; it throws iff some boundary element is no side of any such element or a boundary has no domain of the next dimension, whatever the order of the parallel visit.", "quantifier": "all meshes, all element orders, all boundary id lists, all schedules", "why_tests_cant": "All meshes; the node order on a side is arbitrary.", "anchors": ["include/l3ster/mesh/MeshPartition.hpp: makeBoundaryElementViews, doesSideMatch, matchBoundaryNodesToElement", "include/l3ster/mesh/MeshUtils.hpp: findDomainElement"]}
{"id": "C57", "title": "A constructed mesh partition knows all of its nodes", "statement": "After construction every node of every element is owned or shared: the constructor with an explicit range owns that range and shares exactly the remaining nodes of its elements, ascending and without repetition; the constructor without one owns all nodes. Copies are equal.", "quantifier": "all domain maps, all owned ranges, all iteration orders of the hash sets", "why_tests_cant": "All meshes; hash set iteration order.", "anchors": ["include/l3ster/mesh/MeshPartition.hpp: MeshPartition constructors, copy"]}
{"id": "C58", "title": "Renumbering nodes keeps ownership and elements consistent", "statement": "reindexNodes with a map sending the owned ids onto a contiguous range and the shared ids outside of it replaces every node id everywhere, so that an id is owned (shared) afterwards iff it is the image of an id owned (shared) before.", "quantifier": "all meshes, all maps", "why_tests_cant": "All maps and meshes.", "anchors": ["include/l3ster/mesh/MeshPartition.hpp: reindexNodes"]}
{"id": "C59", "title": "Mesh visits and reductions touch every element exactly once", "statement": "Visiting a set of domains calls the visitor exactly once per element of those domains, in a fixed order when sequenced and in some order when parallel; unknown ids are ignored; transformReduce yields the fold over the same elements for every commutative monoid; getNElements counts them.", "quantifier": "all meshes, all id lists, all schedules", "why_tests_cant": "All schedules.", "anchors": ["include/l3ster/mesh/MeshPartition.hpp: visitImpl, transformReduce, getNElements", "include/l3ster/util/UniVector.hpp"]}
{"id": "C60", "title": "Domains hold elements of one dimension only", "statement": "pushToDomain appends the element to the vector of its type and nothing else, fixes the dimension of the domain at the first push, and throws for an element of another dimension.", "quantifier": "all domains, all elements", "why_tests_cant": "All push histories.", "anchors": ["include/l3ster/mesh/Domain.hpp: pushToDomain, emplaceInDomain"]}
{"id": "C61", "title": "The matrix used to find polynomial roots has the roots as eigenvalues", "statement": "The companion matrix built by Polynomial::roots has a real number as eigenvalue iff the polynomial vanishes there.", "quantifier": "all polynomials of order at least one with non-zero leading coefficient, all reals (exact arithmetic)", "why_tests_cant": "All orders and coefficients.", "anchors": ["include/l3ster/math/Polynomial.hpp: roots"]}
{"id": "C62", "title": "The node order puts interior nodes side by side", "statement": "computeNodeOrder lists the owned nodes first and the shared nodes last, each exactly once, and the interior nodes of every element of the greatest dimension occupy consecutive places in their local order.", "quantifier": "all meshes for which it succeeds", "why_tests_cant": "All meshes and element orders.", "anchors": ["include/l3ster/mesh/LocalMeshView.hpp: computeNodeOrder"]}
{"id": "C63", "title": "The local mesh view contains every element once, with its boundary sides", "statement": "The local view of a mesh part has, for each domain that is not a boundary, exactly one view per element; the view carries the element's vertices, the local indices of its nodes in the full mesh, and for each side the boundary it lies on.", "quantifier": "all valid meshes with consecutive interior nodes, all traversal orders of the hash tables", "why_tests_cant": "All meshes; reordering and lookup by element id interact.", "anchors": ["include/l3ster/mesh/LocalMeshView.hpp: LocalMeshView, makeElementIdToSidesMap"]}
{"id": "C64", "title": "Reading a gmsh file yields the mesh the file describes", "statement": "For every well-formed ASCII 4 file readMesh succeeds; the domains are the physical groups, each holding exactly the elements of its blocks in file order, with ids counting elements, nodes numbered by their position in the file, coordinates attached to the right vertices; the mesh owns all its nodes.", "quantifier": "all files: any numbers of entities, blocks, nodes and elements, any tags", "why_tests_cant": "All files, in particular empty blocks and nodes without elements.", "anchors": ["include/l3ster/mesh/ReadMesh.hpp: readMesh", "include/l3ster/util/IO.hpp", "include/l3ster/mesh/MeshPartition.hpp: MeshPartition(domains, boundary_ids)"]}
{"id": "C65", "title": "Saved results are read back at the right nodes and fields", "statement": "save writes every owned value of every selected field exactly once, at disjoint places of the file, whatever the number of ranks and the order of the writes; opening the file yields the numbers of fields and nodes; loadResults then sets exactly the requested columns at exactly the mesh's nodes to the values the owning ranks saved.", "quantifier": "all rank counts, owned counts (also zero), field selections, comments, earlier file contents, write orders, old-node maps of the loading mesh", "why_tests_cant": "All distributions and orders of concurrent writes.", "anchors": ["include/l3ster/post/NativeIO.hpp: save (results), LoadedResults, Loader::loadResultsImpl, loadMeshDirect", "include/l3ster/comm/MpiComm.hpp: FileHandle::writeAtAsync"]}
{"id": "C66", "title": "A saved mesh loads as the same parts or as their union", "statement": "A mesh file loaded by as many ranks as saved it gives every rank its part unchanged; any other number of ranks throws; loaded as a whole it gives a mesh with exactly the union of the parts' elements per domain, owning all nodes, with the same boundaries and views for all their elements; an incomplete file throws.", "quantifier": "all meshes and partitions, numbers of parts, comments, earlier file contents, write orders, file lengths", "why_tests_cant": "All partitions and all truncations.", "anchors": ["include/l3ster/post/NativeIO.hpp: save (mesh), extractSavedPartitionInfo, loadPartitionedMesh, loadUnifiedMesh", "include/l3ster/mesh/MeshUtils.hpp: serializeMesh, deserializeMesh"]}
{"id": "C67", "title": "Basis functions are nodal, sum to one and reproduce polynomials", "statement": "For lines, quads and hexes of every order each basis function is 1 at its own node and 0 at all others, valueAt takes the nodal values at the nodes and reproduces every polynomial of at most the order in each variable, values sum to 1 and derivatives to 0, and the derivative functions are the partial derivatives of the basis functions; the tables at points hold these values.", "quantifier": "all element types, orders, distinct abscissae, points (also outside the element), nodal values and polynomials; exact arithmetic", "why_tests_cant": "All orders and all polynomials; tests check a few orders at a few points.", "anchors": ["include/l3ster/basisfun/ReferenceBasisFunction.hpp: evaluateLineBasisFun, evaluateQuadBasisFun, evaluateHexBasisFun, their derivatives, computeRefBasis, computeRefBasisDers", "include/l3ster/basisfun/ReferenceBasisAtPoints.hpp: evalRefBasisAtPoints", "include/l3ster/basisfun/ValueAt.hpp: valueAt"]}
{"id": "C70", "title": "The nodes along an edge ascend strictly from -1 to 1", "statement": "For every number of points the Lobatto abscissae are strictly ascending, start at -1, end at 1, and are exactly the ends and the zeros of the derivative of the Legendre polynomial, which are all real and simple.", "quantifier": "all numbers of points; any root finder that returns all zeros, sorted; exact arithmetic", "why_tests_cant": "All orders.", "anchors": ["include/l3ster/math/LobattoRuleAbsc.hpp: computeLobattoRuleAbsc", "include/l3ster/math/Lobatto.hpp: getLobattoPolynomial", "include/l3ster/math/Polynomial.hpp: roots"]}
{"id": "C69", "title": "Quadratures integrate polynomials up to their order exactly", "statement": "The Gauss-Legendre quadrature of order QO has positive weights, all points inside the element, along a line strictly ascending at exactly the zeros of the Legendre polynomial, and integrates every polynomial of at most degree QO in each variable exactly over the reference line, square and cube; evalQuadrature adds exactly the weighted values to its start value.", "quantifier": "all orders, element types and polynomials; any eigenvalue solver that returns the sorted eigenvalues and an orthonormal basis of eigenvectors; exact arithmetic", "why_tests_cant": "All orders and all polynomials.", "anchors": ["include/l3ster/math/ComputeGaussRule.hpp: computeGaussRule", "include/l3ster/quad/ReferenceQuadrature.hpp", "include/l3ster/quad/GenerateQuadrature.hpp: getQuadrature", "include/l3ster/quad/EvalQuadrature.hpp: evalQuadrature"]}
{"id": "C68", "title": "The element mapping, its Jacobi matrix, gradients, side points and normals are consistent", "statement": "The mapping takes reference corners to vertices; the Jacobi matrix is its derivative; the physical basis derivatives give the exact gradient of every field that is a polynomial of at most the order in reference variables; side quadrature points lie exactly on their side, isometrically; the boundary Jacobian is the area of the derivatives of the mapped side; the normal is a unit vector, orthogonal to the side, outward for positive determinants, and satisfies Nanson's formula.", "quantifier": "all element types, orders, vertex positions, points and fields; exact arithmetic", "why_tests_cant": "All element shapes and fields; sign and side conventions of six tables must agree.", "anchors": ["include/l3ster/mapping/JacobiMat.hpp", "include/l3ster/mapping/MapReferenceToPhysical.hpp", "include/l3ster/mapping/ComputePhysBasisDer.hpp", "include/l3ster/mapping/BoundaryIntegralJacobian.hpp", "include/l3ster/mapping/BoundaryNormal.hpp", "include/l3ster/mapping/ReferenceBoundaryToSideMapping.hpp", "include/l3ster/math/RotationMatrix.hpp", "include/l3ster/basisfun/ReferenceElementBasisAtQuadrature.hpp: getReferenceBasisAtBoundaryQuadrature"]}
{"id": "C71", "title": "Exported VTK files describe the mesh and the fields exactly", "statement": "After all writes of an export, performed in any order over any old file, the file is the description, the appended data and the closing tags; every array named in the description is found at its offset as Base64 text of its size and data; a reader gets exactly the cells into which the nodes cut the elements (VTK corner order, local node numbers), the coordinates of every node and the field values, vectors padded to three components; the attributes name the first scalar and the first vector.", "quantifier": "all meshes, orders, field groupings, ownerships, schedules, write orders, old files and Base64 code paths", "why_tests_cant": "All orders of parallel stores and writes, all sizes modulo 3, all element orders.", "anchors": ["include/l3ster/post/VtkExport.hpp: serializeElementSubtopo, serializeTopology, makeCoordsSerialized, encodeFieldImpl, encodeField, makeDataDescription, enqueueVtuFileWrite, appendPvtuPointDataDef"]}
{"id": "C72", "title": "Evaluating an element's operator equals multiplying by its matrix", "statement": "For every sequence of elements evaluated on one thread, the result for each is the element matrix of the assembled path times the operand, whatever the batch size and the old buffer contents; the precomputed diagonal is that of the matrix and the precomputed right-hand side that of the element minus the Dirichlet columns times their values. The batch size is positive, and batch and operand fit the cache for which it was chosen.", "quantifier": "all kernels, numbers of unknowns, equations, bases and points, batch sizes, Dirichlet sets and histories of a thread", "why_tests_cant": "The batch size depends on the caches of the machine; all combinations of open batches, equations and operand widths cannot be enumerated.", "anchors": ["include/l3ster/algsys/EvaluateLocalOperator.hpp: OperatorEvaluationManager, batchSizeHeuristic, evaluateLocalOperator, precomputeOperatorDiagonalAndRhs"]}
{"id": "C73", "title": "Sum factorisation gives the same element result as direct evaluation", "statement": "For quadrilaterals and hexahedra the buffer produced by the one-dimensional sweeps is the element matrix of the direct evaluation times the operand, with the plain and with the odd-even sweeps, every block size, and whatever the reused buffers held before; no access is out of bounds. The symmetry of points, nodes and matrices on which the odd-even sweeps rest holds for every order.", "quantifier": "all element orders, quadrature orders, vertex positions, numbers of unknowns, equations, right-hand sides and fields, kernels, operands and buffer contents; exact arithmetic", "why_tests_cant": "Every combination of orders and SIMD widths takes different sweeps and buffer layouts; tests cover a few.", "anchors": ["include/l3ster/algsys/SumFactorization.hpp: evalLocalOperatorSumFact, sumFactImpl, sumFactBackQuad, sumFactBackHex, sumFactForwardQuad, sumFactForwardHex, evalAtQuadQPs, evalAtHexQPs, sweeps, makeEO, reconstructOddEven"]}
{"id": "C74", "title": "All ranks agree on the Dirichlet unknowns of a matrix-free system", "statement": "After construction every rank knows, for each of its owned and shared unknowns, whether some element of some rank has it on a side in a boundary where its component is prescribed, or whether it is the one unknown chosen for a normalised component; nothing else is marked. The owned ones are listed once, ascending. The user's definition is recorded faithfully and a component number out of range throws.", "quantifier": "all meshes, partitions, dof maps, boundary definitions, numbers of ranks, orders in which threads set flags and in which messages arrive", "why_tests_cant": "A marker missing on one rank only shows when a boundary ends exactly at a partition interface; it makes ranks disagree about the system silently.", "anchors": ["include/l3ster/bcs/LocalDirichletBC.hpp: LocalDirichletBC, getNormalizationDofs", "include/l3ster/bcs/BCDefinition.hpp: DirichletBCDefinition, BCDefinition"]}
{"id": "C75", "title": "The matrix-free operator is the assembled one with Dirichlet rows and columns replaced", "statement": "apply computes y := beta y + alpha A x on all ranks, where A is the sum of all element matrices with the rows and columns of prescribed unknowns replaced by those of the identity, for any mixture of direct and sum-factorised kernels and any interleaving of interior work, border work and messages. The precomputed diagonal and right-hand side belong to the same system; its solutions are those of the assembled equations that take the prescribed values. Calls with unsuitable numbers of columns throw, no access is out of bounds.", "quantifier": "all partitions, dof maps, jobs, element matrices over any commutative ring, operands, numbers of columns, scale factors, schedules of threads and messages", "why_tests_cant": "Overlap of communication and computation depends on timing: the border may run in the middle of the interior or after it, and a shared unknown may be added to by any number of ranks.", "anchors": ["include/l3ster/algsys/MatrixFreeSystem.hpp: applyImpl, computeDiagAndRhs, makeEvalKernel, makeInitKernel, gather, gatherSumFact, scatter, scatterSumFact, scatterInit, getDirichletIndsSumFact"]}
{"id": "C76", "title": "Raising the order of a mesh numbers every point once", "statement": "Converting a conforming unpartitioned mesh of order 1 keeps domains, types, ids, vertices and boundaries and gives every element the nodes of the new order. Two nodes of any two elements have the same number exactly if they are the same point (the same combination of the vertices), old nodes keep their numbers, the numbers are 0 to N'-1 without gaps, sides of elements remain sides, and the result satisfies what partitioning requires. No access is out of bounds and nothing throws.", "quantifier": "all conforming meshes of lines, quadrilaterals and hexahedra in all orientations, orders, domain numberings, dual graphs and schedules; exact arithmetic", "why_tests_cant": "How two elements are oriented against each other, which of them is visited first, and through which third element they share nodes depends on the whole mesh; a wrong match gives a valid-looking mesh with cracks.", "anchors": ["include/l3ster/mesh/ConvertMeshToOrder.hpp: convertMeshToOrder", "include/l3ster/mesh/ElementIntersecting.hpp: element_outer_features, elementIntersectionSpans, elementIntersection, updateMatchMask", "include/l3ster/mesh/MeshUtils.hpp: computeMeshDual", "include/l3ster/mesh/NodePhysicalLocation.hpp: nodePhysicalLocation"]}
{"id": "C77", "title": "Integrals and norms do not depend on how the mesh is distributed", "statement": "For every partition of a mesh, every schedule and every kernel, each rank's part of an integral is computed without error and the reduced result is the sum over all elements of the given domains (for boundary integrals: over all boundary elements, each as a side of an element it is attached to), each counted once, of the integral of the kernel over the element. The kernel is given the value and the gradient in space of the polynomial through the nodal values of the fields, the point, the time and, on boundaries, the outer unit normal; the quadrature is exact for polynomials of the chosen order. Norms use twice the order; if the mapping is orientation preserving the squared norm has no negative contribution, and if integration is exact the norm vanishes exactly if the kernel vanishes in all elements. All columns of a kernel with several right-hand sides are integrated (false: only the first is reduced). The order chosen from the numbers of values and derivatives in a product is the degree of the product on lines, exactly; on quads and hexes it is too low as soon as derivatives are multiplied (refuted).", "quantifier": "all meshes, partitions, ownerships, fields, kernels, element types and orders, quadrature orders and parallel schedules; exact arithmetic; boundaries of lines excluded", "why_tests_cant": "A wrong local index of a ghost node, an element counted on two ranks, or a gradient transformed with the wrong Jacobian shows only for particular partitions and curved data; tests integrate constants on boxes.", "anchors": ["include/l3ster/post/Integral.hpp: computeIntegral, evalLocalIntegral, evalElementIntegral, evalElementBoundaryIntegral", "include/l3ster/post/NormL2.hpp: computeNormL2", "include/l3ster/post/FieldAccess.hpp: FieldAccess", "include/l3ster/algsys/AssembleLocalSystem.hpp: evalKernel, AssemblyOptions", "include/l3ster/mesh/MeshPartition.hpp: transformReduce, transformReduceBoundaries"]}
{"id": "C78", "title": "Native preconditioners are the operators they stand for; solvers can be reused for the same objects", "statement": "One sweep of a native preconditioner computes alpha M X + beta Y, where M is the damping factor (Richardson) or the damped inverse of the diagonal with entries below the threshold replaced (Jacobi); M has the signs of the diagonal and is bounded by damping / threshold. k sweeps compute alpha (1 + ... + beta^(k-1)) M X + beta^k Y, which is neither the operator nor k steps of a relaxation (refuted). A solver object used any number of times with the same A, b and x solves with their contents at each call, with the preconditioner of the first; used with other objects it solves the first system again (refuted), and after a failed set-up it goes on without one (refuted). A preconditioner for matrices given another operator is undefined behaviour.", "quantifier": "all sizes, numbers of columns, damping factors, thresholds, sweeps, alpha, beta; all histories of calls and changes of memory between them; every behaviour of Belos, Amesos2 and Ifpack2; exact arithmetic", "why_tests_cant": "Tests use one sweep and a new solver for every solve.", "anchors": ["include/l3ster/solve/NativePreconditioners.hpp: NativeRichardsonImpl, NativeJacobiImpl", "include/l3ster/solve/PreconditionerInterface.hpp: initPreconditioner", "include/l3ster/solve/BelosSolvers.hpp: BelosSolverInterface", "include/l3ster/solve/Amesos2Solvers.hpp: Amesos2SolverInterface"]}
{"id": "C79", "title": "The assembled system is the sum of all local systems, with the Dirichlet conditions imposed", "statement": "Assembly over distributed mesh parts succeeds, and row i of the result, stored once, on the rank that owns unknown i, has exactly the entries and right-hand sides that are the sums over the local systems of all elements of all ranks, in every order of the threads' atomic additions and of the messages; calling beginAssembly on a closed system starts from zero; stages are checked. Every rank finds the constrained unknowns among its rows and columns (at nodes of boundary elements of any rank; the least unknown of a normalised component). The solutions of the system with Dirichlet conditions are the vectors with the prescribed values at constrained unknowns that satisfy the other equations. Kernels whose components are spread over two definitions lose entries, kernels and conditions with absent components index out of bounds (refuted).", "quantifier": "all meshes, partitions, definitions, numbers of right-hand sides, sequences of assembleProblem calls and element matrices; all orders of additions and messages; values in any ring", "why_tests_cant": "Tests assemble one mesh on one partition and look at the error of the solution; lost couplings and races of additions depend on definitions and schedules that no test has.", "anchors": ["include/l3ster/algsys/AssembledSystem.hpp: AssembledSystem::beginAssembly, endAssembly, assembleProblem, applyDirichletBCs, getMatrix, getRhs, setDirichletBCValues", "include/l3ster/algsys/AssembleGlobalSystem.hpp: assembleGlobalSystem", "include/l3ster/algsys/ScatterLocalSystem.hpp: scatterLocalSystem", "include/l3ster/algsys/StaticCondensationManager.hpp: StaticCondensationManager<None>::condenseSystemImpl", "include/l3ster/bcs/GetDirichletDofs.hpp: getDirichletDofs"]}
{"id": "C80", "title": "Merging two meshes joins them at the nodes that are at the same place", "statement": "merge of two unpartitioned meshes whose boundary nodes coincide or keep a distance identifies exactly the boundary nodes of the two meshes that are at the same point. In the result every node of every element is where it was, every place has one node, the elements are those of both meshes except the boundary elements that have the same corners as a boundary element of the other mesh, and the boundaries are those that still have an element. Only boundary nodes nearer than the tolerance are ever identified. This holds provided the conversion of NaN to an integer gives no extreme value, or all nodes are on boundaries; where it gives the least integer, a node inside the second mesh makes merge undefined (refuted). Nodes nearer than the tolerance may be missed (refuted). deform keeps a mesh valid and moves its nodes.", "quantifier": "all meshes of order 1 with coordinates up to 10^5, all boundaries, schedules of the parallel visit and orders of traversing the hash map; exact arithmetic with NaN", "why_tests_cant": "Whether a stray NaN does harm depends on the machine and the order of a hash map; the sanitizer sees the overflow only with an inner node and the tests look at the number of nodes and elements.", "anchors": ["include/l3ster/mesh/MeshUtils.hpp: makeBoundaryNodeCoordsMap, initSpaceHashTable, invertNodeCoordMap, matchExistingNodes, merge, deform", "include/l3ster/util/SpatialHashTable.hpp: SpatialHashTable::proximate, snapToGrid", "include/l3ster/util/Functional.hpp: Min", "include/l3ster/mesh/primitives/SquareMesh.hpp: makeSquareMesh"]}
{"id": "C81", "title": "The mesh of a channel with a cylinder consists of fitting parts and has no bad element", "statement": "makeCylinderInChannel2DMesh makes ten grid meshes (two halves of a ring, four parts between ring and walls, four corners). Neighbouring parts have the same nodes on their common sides. The outer sides lie on the walls of the channel, the inner side of the ring on the circle. With a positive inner radius every quadrilateral is convex and counterclockwise, and every node is in the channel and not inside the cylinder. The merged mesh has one position per node, its quadrilaterals are the cells of the parts, and its edges lie on sides of parts with their id. correct() and distinct ids are not enough: domain id 1 makes the function throw, and an inner radius of 0 is accepted and gives degenerate elements (both refuted).", "quantifier": "all geometries accepted by correct() with positive radius (numbers of elements, gradings, offsets), all ids where the domain id is not a boundary id nor 1, 2, 3, 4; all schedules; all matchings that pair nodes at the same position; real arithmetic", "why_tests_cant": "Tests build the mesh for a few geometries and count elements; a mismatch on an interface, a folded element or a clash of ids appears only for some combination of seventeen parameters.", "anchors": ["include/l3ster/mesh/primitives/CylinderInChannel2D.hpp: makeCylinderInChannel2DMesh, CylinderInChannel2DGeometry::correct", "include/l3ster/mesh/primitives/SquareMesh.hpp: makeSquareMesh", "include/l3ster/mesh/MeshUtils.hpp: deform, copy, merge", "include/l3ster/util/Common.hpp: geomSpaceProg, linspace"]}
{"id": "C82", "title": "The Robin Hood hash table is a map", "statement": "For every hash function and every sequence of emplace, insert_or_assign, erase, clear and reserve, the table either throws the overflow error or is the map that these changes describe: find gives every key its last value and nothing for absent keys, size() is the number of keys, and iteration from begin() to end() visits every key once. Distances are kept in bytes that may be halved in precision; no byte ever overflows, nothing is read or written outside the arrays, no dead node is used and no live one is constructed over. With at most 125 keys at any time it never throws, whatever the hash. At most 127 keys with the same hash fit: unlike a map of the standard library, the table throws for 128 such keys (refuted).", "quantifier": "all key and value types, all hash functions (as a function of the key and the number of changes of the multiplier), all sequences of changes", "why_tests_cant": "The info bytes overflow only for long chains of collisions, which tests with a good hash never produce; a lost element would show up only with a special set of keys and a special order of erasures.", "anchors": ["include/l3ster/util/RobinHoodHashTables.hpp: Table::keyToIdx, findIdx, nextWhileLess, insertKeyPrepareEmptySpot, shiftUp, shiftDown, insert_move, try_increase_info, increase_size, rehashPowerOfTwo, erase, clear, reserve, Iter::fastForward, begin, end"]}
{"id": "C83", "title": "The constexpr vector is a sequence and owns its memory", "statement": "Consider any program with any number of vectors: construction from a value or a list, copy and move construction, move assignment, pushBack of a value or of an own element, popBack, clear, reserve. If no precondition of a sequence is violated and no vector gets an own element pushed, then every vector holds the sequence that the operations describe, no cell is read while no object lives in it, no object is constructed over another, no block is freed twice or used after being freed, and after the destructors every block has been freed. Pushing an own element works while the capacity exceeds the size; for a full vector it reads the freed block (refuted that a vector behaves like a sequence, as std::vector does).", "quantifier": "all element types and values, all programs over all numbers of vectors", "why_tests_cant": "A leak, a double free or a use after free depends on the order of operations and on the capacities, and usually stays without visible effect.", "anchors": ["include/l3ster/util/ConstexprVector.hpp: ConstexprVector constructors, operator=, ~ConstexprVector, reserve, emplaceBack, pushBack, popBack, clear, construct, destroy, reallocate, deallocate, grow"]}
{"id": "C84", "title": "The solution manager keeps every field apart", "statement": "After any sequence of changes to existing fields and nodes (setFields with a value, writes through field views, writes through the raw view), every field has at every node what was written there last, and no access leaves the array. A field access for existing fields, taken at any time, reads the current values, for local and for global node ids. getFieldAccess never replaces an index by another one: it throws if the index does not fit 32 bits. The deprecated makeFieldValueGetter for ranges does replace it (refuted), and an access to a field that does not exist is handed out and reads out of bounds (refuted that it is rejected).", "quantifier": "all ownerships, numbers of fields, value types, sequences of changes, standard integer types of indices, lists of fields and nodes", "why_tests_cant": "A wrong stride or layout shows only for several fields with different values; wrapped indices need values above 32 bits.", "anchors": ["include/l3ster/post/SolutionManager.hpp: SolutionManager, getFieldView, getRawView, setFields, getFieldAccess, makeFieldValueGetter", "include/l3ster/post/FieldAccess.hpp: fill, getLocallyIndexed, getGloballyIndexed"]}
{"id": "C85", "title": "References into the reference-stable collection stay valid", "statement": "For every block size above 0 and every sequence of pushes of values and of own elements, the collection is the sequence of what was pushed: size(), operator[] and the iteration from begin() to end() agree with it. All references that emplace returned are different, equal to those of operator[], and keep both their place and their value while more is pushed; memory of others is not touched. The postfix increment and decrement of its iterator neither move the iterator nor return the old one (refuted that they behave like those of a random access iterator).", "quantifier": "all element types, block sizes, contents of the rest of the heap and sequences of pushes", "why_tests_cant": "A wrong block index shows only at block boundaries; a moved block leaves references that still seem to work.", "anchors": ["include/l3ster/util/ConstexprRefStableCollection.hpp: ConstexprRefStableCollection::getInds, operator[], emplace, push, grow, Iterator, constexprMakeUnique"]}
{"id": "C86", "title": "The constexpr unique pointer frees its object exactly once", "statement": "For every program of constexprMakeUnique, move constructions, move assignments and final destruction of all pointers: nothing is freed twice or used after being freed, no two pointers own the same object, and a pointer refers to the object that was moved to it. If every move assignment has a null target, everything is freed. It is refuted that everything is freed in general: exactly one object leaks for each move assignment to a pointer that owns an object.", "quantifier": "all element types and all programs over all numbers of pointers", "why_tests_cant": "A leak has no visible effect; at compile time it shows only if the pointer is assigned in a constant expression.", "anchors": ["include/l3ster/util/ConstexprRefStableCollection.hpp: ConstexprUniquePtr, constexprMakeUnique"]}
{"id": "C87", "title": "Problem definitions activate exactly what was requested", "statement": "After any sequence of ProblemDefinition::define calls (those that threw included), an unknown is active in a domain exactly when some accepted call named both; a call is accepted exactly when all its unknowns exist; getDomains is the ascending, repetition-free list of the domains of accepted calls. defineDomain flags exactly the named fields or throws, and ProblemDef pads all domains to the largest number of fields without adding or losing one.", "quantifier": "all numbers of unknowns, all sequences of calls, all index and domain lists", "why_tests_cant": "Tests use a few hand-written definitions; overlapping domains, repeated indices and caught exceptions combine without bound.", "anchors": ["include/l3ster/common/ProblemDefinition.hpp: defineDomain, ProblemDef, extendDomainDef, ProblemDefinition::define, getDomains"]}
{"id": "C88", "title": "intDivRoundUp rounds the quotient up", "statement": "For every integral type, the result q of intDivRoundUp(n, d) satisfies (q-1)*d < n <= q*d and is computed without overflow.", "quantifier": "all types, all n and all positive d", "why_tests_cant": "The operand space is the square of a 64-bit type.", "anchors": ["include/l3ster/math/IntegerMath.hpp: intDivRoundUp"]}
{"id": "C89", "title": "GraphWrapper owns and copies METIS graphs correctly", "statement": "In every program that makes, copies, assigns and moves GraphWrapper objects (and copies none that was moved from), getElementAdjacent gives the neighbours of each vertex of the graph the object stands for, copies are independent of their originals, and every block is freed exactly once.", "quantifier": "all programs over any number of graphs, all graphs", "why_tests_cant": "Memory errors depend on the sequence of copies, moves and destructions, which has no bound.", "anchors": ["include/l3ster/util/MetisUtils.hpp: GraphWrapper, getElementAdjacent"]}
{"id": "C90", "title": "WeakCache gives the last emplaced object while it is held", "statement": "In every program of emplace, get, and copies and resets of the shared pointers obtained, get(key) gives the object last emplaced under the key if the program still holds a pointer to it and null otherwise; held pointers always refer to their value; objects live exactly as long as they are held; contains(key) tells whether the key was ever emplaced.", "quantifier": "all programs, all keys and values", "why_tests_cant": "The outcome depends on the order of emplacements and releases, which has no bound.", "anchors": ["include/l3ster/util/WeakCache.hpp: contains, get, emplace"]}
{"id": "C91", "title": "ArrayOwner owns its elements, and at is checked access", "statement": "In every program that makes, copies, moves and writes ArrayOwner objects, each array has the elements it stands for, copies are independent of their originals, at gives the element or throws exactly outside the array, nothing undefined happens, and every block is deleted exactly once.", "quantifier": "all programs over any number of arrays, all element lists", "why_tests_cant": "Memory errors depend on the sequence of copies, moves and destructions, which has no bound.", "anchors": ["include/l3ster/util/ArrayOwner.hpp: constructors, at, implicit moves and destructor, copy"]}
{"id": "C92", "title": "TypeErasedOverload calls, moves and destroys its target correctly", "statement": "In every program that makes, moves and assigns TypeErasedOverload objects with targets in the buffer or on the heap, nothing undefined happens; a call of an object that has a target reaches that target; operator bool is false exactly for objects that have no target type; every target is destroyed exactly once.", "quantifier": "all programs over any number of objects, all targets of both sizes", "why_tests_cant": "Memory errors depend on the sequence of moves and destructions and on the sizes of the targets, which has no bound.", "anchors": ["include/l3ster/util/TypeErasedOverload.hpp: TypeErasedOverload, TypeErasedInvoker, initTarget, makeSpecialMemberImpl, moveImpl, dtorImpl"]}
{"id": "C93", "title": "integralPower and smallest_integral_t are exact", "statement": "integralPower gives the power modulo the range for unsigned types; for signed types it gives the power when that is representable and overflows otherwise. smallest_integral_t can represent everything between both bounds, no standard type of the same signedness with fewer bits can, and it does not exist exactly when no type of at most 64 bits fits.", "quantifier": "all bases and exponents, all widths, all pairs of bounds", "why_tests_cant": "Both take 64-bit arguments; tests cover the few values the library uses.", "anchors": ["include/l3ster/util/Common.hpp: integralPower, SmallestIntegralImpl, smallest_integral_t"]}
