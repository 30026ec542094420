#!/usr/bin/env python3
"""Writes /verif/properties.jsonl.  One call of P(...) per property."""
import json
out = []
def P(id, title, statement, quantifier, why, anchors):
    out.append(dict(id=id, title=title, statement=statement, quantifier=quantifier,
                    why_tests_cant=why, anchors=anchors))
I = "include/l3ster/"

P("C01", "Base64 output is exactly the RFC 4648 encoding",
  "For every byte sequence, encodeAsBase64 writes exactly the RFC 4648 Base64 text of that sequence (alphabet, grouping and '=' padding), it writes exactly getBase64EncodingSize characters, and the text does not depend on whether the scalar or the AVX2 path is taken, nor on how the input is split between threads.",
  "all byte sequences of any length, all ways of cutting the input into multiple-of-three chunks, both code paths",
  "The input space is infinite and the SIMD/scalar boundary depends on length and alignment; example-based tests only visit a few lengths.",
  [I+"util/Base64.hpp: encodeAsBase64, encB64SerialImpl, encB64Remainder, encB64SimdImpl, alignForSimd, getBase64EncodingSize"])
P("C02", "Base64 output can be decoded back",
  "Decoding the text produced by encodeAsBase64 with the standard decoder yields the original bytes; in particular two different inputs never give the same text.",
  "all byte sequences of any length",
  "Injectivity is a statement about all pairs of inputs.",
  [I+"util/Base64.hpp: encodeAsBase64"])
P("C03", "A DynamicBitset behaves like an array of booleans",
  "After any sequence of set, reset, flip, assign, clear and growing resize calls with in-range positions, test(i) returns what an array of booleans subjected to the same calls would hold at i, size() is the array length and count() is the number of true entries.",
  "all initial sizes, all finite call histories, all positions",
  "The claim is about every call history; word/bit packing errors show up only at particular positions and sizes.",
  [I+"util/DynamicBitset.hpp: DynamicBitset"])
P("C04", "Counting a bitset sub-range",
  "getSubView(b,e).count() is the number of true entries at positions b <= i < e, for every b <= e <= size().",
  "all bitset contents, all sub-ranges (within a word, at word borders, over many words)",
  "The three-case mask logic has infinitely many (begin,end) alignments.",
  [I+"util/DynamicBitset.hpp: SubView::count"])
P("C05", "Concurrent atomic updates of a bitset are never lost",
  "When several threads apply set/reset/flip through AtomicView concurrently, every interleaving leaves each bit as if the operations on that bit had been executed one after another in some order consistent with every thread; when all operations are sets the final content is the same for every interleaving.",
  "all programs of all threads, all interleavings, all initial contents",
  "Schedules cannot be enumerated by tests, and bits share machine words.",
  [I+"util/DynamicBitset.hpp: AtomicView"])
P("C06", "Shrinking a bitset discards the discarded bits",
  "After resize(n) only the first n flags are visible: count() equals the number of true flags below size(), and growing again exposes false flags.",
  "all contents, all sequences of resize calls",
  "Depends on the history of sizes relative to the 64-bit word boundary.",
  [I+"util/DynamicBitset.hpp: resize, count"])
P("C07", "Local and global indices are inverse bijections",
  "For an ownership description built from a contiguous owned range and a list of distinct shared ids, getGlobalIndex maps 0..localSize()-1 one-to-one onto owned plus shared ids, owned ids first, and getLocalIndex is its inverse; construction throws iff a shared id is owned.",
  "all owned ranges, all lists of distinct shared ids in any order, all ids",
  "All index sets of all sizes; binary search correctness for every position.",
  [I+"util/SegmentedOwnership.hpp: SegmentedOwnership, getLocalIndex, getGlobalIndex"])
P("C08", "The owner lookup finds the rank owning an index",
  "Given how many indices each rank owns, the rank computed for a global index is the unique rank whose owned range contains it, also when some ranks own nothing.",
  "all communicator sizes, all distributions of indices to ranks, all indices below the global count",
  "Empty ranks and range borders are corner cases across all distributions.",
  [I+"util/SegmentedOwnership.hpp: getOwnershipDist, computeOutNbrInfo", I+"algsys/SparsityGraph.hpp: makeDofToOwnerMap", I+"bcs/PeriodicBC.hpp: scatterMatched"])
P("C09", "Neighbour information is mutually consistent",
  "After the neighbour exchange, rank a lists index i as needed by rank b iff i is owned by a and shared by b, and both sides list the indices of a pair of ranks in the same order; every message posted is received.",
  "all communicator sizes, all ownership descriptions",
  "Property of a whole distributed protocol over all rank counts and index sets.",
  [I+"util/SegmentedOwnership.hpp: computeInNbrInfo, computeOutNbrInfo", I+"comm/ImportExport.hpp: ImportExportContext"])
P("C10", "Import brings the owner's values to every sharing rank",
  "After a blocking import each shared entry, in every vector of the multivector, holds the value stored at the owner rank for that global index; owned entries are unchanged.",
  "all communicator sizes, all ownerships, all numbers of vectors, strides and values",
  "Needs all rank counts and all index patterns; tests run on a handful of MPI ranks.",
  [I+"comm/ImportExport.hpp: Import::postComms, packSends, postRecvs, postSends", I+"comm/ImportExport.hpp: ImportExportContext"])
P("C11", "Export combines each contribution exactly once",
  "After a blocking export each owned entry holds the combination of its old value with the shared value of every rank sharing that index, each exactly once, whatever the order in which messages arrive and threads unpack them.",
  "all communicator sizes, ownerships, numbers of vectors, values, commutative-associative combine operations, all arrival and unpacking orders",
  "Message arrival and thread schedules are not controllable by tests.",
  [I+"comm/ImportExport.hpp: Export::postRecvs, postSends, unpack, wait"])
P("C12", "tryReceive reports completion exactly once",
  "For each posted import, however many threads call tryReceive concurrently and whatever the interleaving, at most one call returns true, it returns true only after all messages have arrived, and if some call starts after arrival with nobody inside then some call returns true.",
  "all numbers of threads and calls, all interleavings, all arrival times",
  "Concurrency property over all schedules.",
  [I+"comm/ImportExport.hpp: Import::tryReceive, postComms"])
P("C13", "Messages of different vectors and objects carry different tags",
  "Two messages in flight between the same ranks that belong to different vectors (below 4096) of one import/export object, or to two objects whose creation numbers differ by a non-multiple of 256, have different tags, and every tag is non-negative.",
  "all object numbers and vector indices",
  "Quantifies over all pairs; collisions only occur for distant pairs.",
  [I+"comm/ImportExport.hpp: ImportExportBase::makeTag, setNumVecs"])
P("C14", "Accepted import/export buffers are never overrun",
  "Once setOwned/setShared accepted the buffers, posting communications touches only memory inside them.",
  "all sizes, strides, numbers of vectors, and all orders of the configuration calls",
  "Out-of-bounds access for unusual configuration orders is not exercised by tests.",
  [I+"comm/ImportExport.hpp: setOwned, setShared, setNumVecs, isOwnedSizeSufficient, isSharedSizeSufficient"])
P("C15", "The staggered all-gather delivers every rank's data once",
  "Every rank's callback is invoked exactly once for each rank of the communicator, with that rank's data and rank number.",
  "all communicator sizes, all data sizes (including empty), all data",
  "All communicator sizes and data lengths; a ring protocol's off-by-one depends on the size.",
  [I+"util/Algorithm.hpp: staggeredAllGather"])
P("C16", "Serialisation round-trips and truncated archives are rejected",
  "Deserialising what was serialised yields the same values and consumes exactly the written bytes, for any nesting of trivially copyable values, strings, ranges and maps; a truncated archive raises an error instead of reading outside the buffer.",
  "all values, all sequences of values, all truncation points",
  "All nestings, lengths and cut points.",
  [I+"util/Serialization.hpp: serialize, deserialize"])
P("C17", "A mesh partition survives serialisation",
  "deserializeMesh(serializeMesh(m)) has the same domains with the same elements in the same order, the same boundary ids and the same node ownership as m.",
  "all meshes without empty domains",
  "Structure is recursive and of arbitrary size.",
  [I+"mesh/MeshUtils.hpp: serializeMesh, deserializeMesh"])
P("C18", "Partitioning loses and duplicates no domain element",
  "The parts produced by mesh partitioning together contain every domain element exactly once, in the domain it came from, whatever the graph partitioner answers.",
  "all meshes, all numbers of parts, all answers of the external partitioner",
  "The external partitioner's output is unconstrained and tests see only one answer.",
  [I+"mesh/PartitionMesh.hpp: makeDomainMaps, partitionMeshImpl"])
P("C19", "Partitioned nodes have exactly one owner",
  "In the partitioned mesh every node is owned by exactly one part, owned ids of part p form a contiguous range directly following those of part p-1, the renumbering of nodes is a bijection applied uniformly to all elements, and each owner has an element containing the node.",
  "all meshes, all numbers of parts, all partitioner answers",
  "Holds for all partitioner answers including ones leaving parts without some of their nodes.",
  [I+"mesh/PartitionMesh.hpp: assignNodes, reassignDisjointNodes, renumberNodes, makeMeshFromPartitionComponents"])
P("C20", "Condensing node numbers for the partitioner is lossless",
  "The condensation keeps exactly the element-boundary nodes, condensed ids are 0..k-1 in increasing order of node id, un-condensing inverts condensing, and the in-place compaction of weights gives condensed node c the weight of the node it stands for.",
  "all meshes, all weight vectors",
  "In-place array compaction must be right for every pattern of kept nodes.",
  [I+"mesh/PartitionMesh.hpp: makeNodeCondensationMaps, condenseNodeWeights, uncondenseNodes"])
P("C21", "Boundary elements follow their parent element",
  "After partitioning every boundary element is in exactly one part, namely one that contains the domain element whose side it is; if some boundary element is not the side of exactly one domain element the partitioner throws.",
  "all meshes",
  "Needs all meshes, including ones with interfaces and stray boundary elements.",
  [I+"mesh/PartitionMesh.hpp: assignBoundaryElements"])
P("C22", "Merging meshes renumbers nodes and elements consistently",
  "merge gives the nodes of the second mesh that coincide with nodes of the first the number of the coincident node, numbers the remaining ones consecutively after the first mesh's nodes without gaps or clashes, and leaves element ids unique and contiguous, preserving their relative order.",
  "all pairs of meshes, all sets of coincident nodes, all sets of removed faces",
  "All interleavings of matched and unmatched nodes.",
  [I+"mesh/MeshUtils.hpp: merge, translateElement, fixElementIds"])
P("C23", "Extruded meshes are conforming",
  "extrude makes one element per 2D element and layer, element ids are unique and contiguous, node ids are those of layer k shifted by k times the number of nodes per layer, elements stacked on each other share exactly the nodes of the common face, and the front/back boundaries hold exactly the first/last layer faces.",
  "all 2D meshes, all numbers of layers",
  "All sizes of mesh and numbers of layers.",
  [I+"mesh/MeshUtils.hpp: extrude"])
P("C24", "makeSquareMesh produces a valid structured mesh",
  "For every pair of coordinate arrays the node ids used are exactly 0..nx*ny-1, element ids are 0..n-1 in order of creation, coordinates belong to the node they are attached to, and each boundary element is an edge of exactly one quadrilateral and each interior edge is shared by two.",
  "all numbers of grid lines in x and y",
  "Unbounded grid sizes; the asymmetric row/column index formulas are only exercised for small grids.",
  [I+"mesh/primitives/SquareMesh.hpp: makeSquareMesh", I+"mesh/primitives/LineMesh.hpp: makeLineMesh"])
P("C25", "makeCubeMesh produces a valid structured mesh",
  "For every triple of coordinate arrays node ids used are exactly 0..nx*ny*nz-1, element ids are unique and contiguous, and each boundary element is a face of exactly one hexahedron.",
  "all numbers of grid lines in x, y and z",
  "Unbounded grid sizes.",
  [I+"mesh/primitives/CubeMesh.hpp: makeCubeMesh"])
P("C26", "Element sides and interiors are indexed correctly for every order",
  "For lines, quads and hexes of any order, the per-side node index lists contain exactly the nodes lying on that side, boundary indices are their sorted union, internal indices are the complement, and the number of internal nodes is (order-1)^dim.",
  "all element orders, all element types",
  "Tables are computed from the order; tests instantiate few orders.",
  [I+"mesh/ElementTraits.hpp: ElementTraits, makeBoundaryNodeInds, makeInternalNodeInds"])
P("C27", "Finding an element by id",
  "find(id) returns the element with that id whenever the mesh holds one and nothing otherwise, provided ids ascend within each element vector.",
  "all meshes, all ids",
  "The contiguous-id shortcut and the binary search must agree for every id pattern.",
  [I+"mesh/MeshPartition.hpp: findImpl"])
P("C28", "Connected components of the periodic graph are right",
  "getComponentsUndirected partitions the vertices, and two vertices are in the same component iff a path connects them; every vertex reachable from the start is visited exactly once by depthFirstSearch.",
  "all graphs",
  "Reachability over all graphs of all sizes.",
  [I+"util/Algorithm.hpp: depthFirstSearch, getComponentsUndirected"])
P("C29", "CRS graphs built from edge lists hold exactly the edges",
  "makeCrsGraph(src,dest) has an edge u-v exactly once if the pair occurs in the lists (in either direction when undirected) and not at all otherwise, rows are sorted and delimited correctly and no entry is left uninitialised.",
  "all edge lists, directed and undirected",
  "Row offsets and filling must be right for every edge order, degree distribution and hash-table iteration order.",
  [I+"util/Algorithm.hpp: makeCrsGraph", I+"util/CrsGraph.hpp: CrsGraph"])
P("C30", "Permutation helpers",
  "sortingPermutation returns a permutation that sorts, copyPermuted applies it, matchingPermutation returns for each element the position of an equal element, and sortRemoveDup leaves the strictly increasing list of the distinct elements.",
  "all sequences",
  "All sequences of all lengths including duplicates.",
  [I+"util/Algorithm.hpp: sortingPermutation, copyPermuted, matchingPermutation, sortRemoveDup"])
P("C31", "Index maps invert the sequence they were built from",
  "IndexMap built from distinct keys returns the position of every key and throws for absent keys; invertMap of an injective map is its inverse.",
  "all key sequences",
  "All key sets.",
  [I+"util/IndexMap.hpp: IndexMap", I+"util/Algorithm.hpp: invertMap"])
P("C32", "Checked integer narrowing",
  "exactIntegerCast returns the same mathematical value or throws; it throws exactly when the value is not representable in the target type.",
  "all pairs of integer types and all values",
  "All type pairs and values including negative boundary values.",
  [I+"util/Common.hpp: exactIntegerCast"])
P("C33", "The spatial hash never misses a close point",
  "proximate(x) yields every inserted point whose distance from x is smaller than the cell size in each coordinate, each exactly once.",
  "all point sets, all cell sizes and origins, all query points",
  "Rounding at cell borders has infinitely many cases.",
  [I+"util/SpatialHashTable.hpp: SpatialHashTable::insert, proximate"])
P("C34", "Parallel reduction equals the sequential one",
  "parallelTransformReduce returns the sequential left fold of the transformed elements for any associative and commutative operation with the given identity, whatever way the runtime splits the range and combines partial results; parallelFor and parallelTransform apply the kernel exactly once per element.",
  "all ranges, all associative and commutative operations, all splitting trees",
  "Splitting is chosen by the scheduler.",
  [I+"util/TbbUtils.hpp: parallelTransformReduce, parallelFor, parallelTransform"])
P("C35", "Local element views reproduce the element's nodes",
  "The node list reconstructed by getLocalNodes equals the local indices of the element's nodes in order, whenever construction of the view succeeds.",
  "all elements with distinct nodes, all ownerships",
  "The compressed representation of interior nodes must be lossless for every numbering.",
  [I+"mesh/LocalMeshView.hpp: LocalElementView"])
P("C36", "Element reordering is a permutation",
  "reorderByAdjacency returns every element exactly once, whatever the connectivity and cache model answers.",
  "all meshes and adjacency structures",
  "Greedy heuristic with a dynamic frontier; must hold for disconnected and degenerate graphs.",
  [I+"mesh/LocalMeshView.hpp: reorderByAdjacency"])
P("C37", "Splitting a partition by a predicate keeps every element and node owner",
  "splitMeshPartition puts each domain element in exactly one half according to the predicate, each boundary element in the half of its parent, and each half owns exactly the owned nodes assigned to it.",
  "all meshes, all predicates",
  "All predicates, in particular those selecting non-contiguous nodes.",
  [I+"mesh/SplitMesh.hpp: splitMeshPartition, makeMesh"])
P("C38", "Redistributing partitions over ranks keeps the mesh",
  "After the mesh parts are permuted among ranks to match the machine topology, two element vertices denote the same node iff they did before, and owned ids are again contiguous in rank order.",
  "all communicator sizes, all rank permutations, all partitioned meshes",
  "Rank permutations are chosen by the MPI library from the machine topology; tests on one machine see the identity.",
  [I+"comm/DistributeMesh.hpp: invertPermutation, establishNewNodeIds, permuteMesh, optimizeMeshDistribution"])
P("C39", "Degrees of freedom are numbered without gaps or clashes",
  "Each active (node, component) pair gets exactly one global number, different pairs get different numbers, the numbers are 0..N-1 with each rank's owned numbers contiguous and in rank order, and every rank sharing a node sees the number given by the owner.",
  "all partitioned meshes, all problem definitions, all communicator sizes",
  "Distributed numbering over all meshes and rank counts.",
  [I+"dofs/NodeToDofMap.hpp: NodeToGlobalDofMap, computeNumOwnedDofs, computeBaseDof, computeOwnedDofs, communicateSharedDofs"])
P("C40", "Periodic nodes share their degrees of freedom",
  "Nodes identified by a periodic boundary condition, directly or through a chain of identifications, get the same global number for the components concerned, and other components are unaffected.",
  "all identifications, all chains, all communicator sizes",
  "Chains of identifications across ranks (corners, edges) of any length.",
  [I+"bcs/PeriodicBC.hpp: getComponents, scatterMatched, PeriodicBC", I+"dofs/NodeToDofMap.hpp: fixPeriodicDofs"])
P("C41", "The sparsity pattern is exactly the union of element couplings",
  "The row of an owned degree of freedom contains a column iff some element on some rank couples the two, sorted and without duplicates; the parallel filling of rows gives the same result for every schedule.",
  "all meshes, problem definitions, rank counts and thread schedules",
  "Races on shared row cursors and remote contributions over all schedules.",
  [I+"algsys/SparsityGraph.hpp: computeLocalGraph, serializeSharedGraph, appendSharedFromSerial"])
P("C42", "Static condensation addresses the right entries",
  "When an element system is condensed, row and column k of the element matrix is added at the position that the (node, component) pair of unknown k occupies in the element's list of primary or interior unknowns.",
  "all element orders, all sets of active components (in any order), all activity patterns on boundary nodes",
  "Index bookkeeping over all orders and component subsets.",
  [I+"algsys/StaticCondensationManager.hpp: computeLocalDofInds, condenseSystemImpl", I+"dofs/DofsFromNodes.hpp: getDofsFromNodes"])
P("C43", "Static condensation does not change the solution",
  "Solving the condensed system and recovering the interior values solves the full system, and conversely, for every symmetric element matrix with invertible interior block.",
  "all block sizes, all symmetric matrices with invertible interior block, all right-hand sides",
  "Algebraic identity over all matrices.",
  [I+"algsys/StaticCondensationManager.hpp: endAssemblyImpl, recoverSolutionImpl"])
P("C44", "Batching of local updates does not change the element system",
  "After any sequence of quadrature-point updates the element system is the weighted sum of all updates, independent of the batch size and of the sign pattern of the weights, and systems of consecutive elements do not influence each other.",
  "all sequences of updates, all batch sizes, all weights",
  "Batch boundaries interact with the number and sign of weights for every length; leftover state after an exception.",
  [I+"algsys/AssembleLocalSystem.hpp: LocalSystemManager::update, flush, getSystem, setZero"])
P("C45", "Nodal values set from several ranks are averaged over all contributions",
  "Setting nodal values in parallel gives each node the mean of all contributions made on all ranks, keeps nodes without contribution unchanged, and for a constant value gives exactly this value.",
  "all rank counts, ownerships, contributions and message orders",
  "Depends on the order of posting counts and computing them across ranks.",
  [I+"algsys/ComputeValuesAtNodes.hpp: averageElementContributions, computeValuesAtNodes, exchangeElementContributions, updateNodeVals"])
P("C46", "Fixed-capacity vectors behave like lists",
  "Any sequence of push, pop, erase and resize within the capacity leaves the vector equal to the corresponding list.",
  "all operation histories within the capacity",
  "All histories.",
  [I+"util/StaticVector.hpp: StaticVector"])
P("C47", "A heterogeneous vector is visited completely and indexed consistently",
  "visit calls the functor exactly once for each element of each contained vector, size() is the total number of elements, and at(i) enumerates the elements in visiting order.",
  "all contents",
  "All combinations of lengths, empty vectors included.",
  [I+"util/UniVector.hpp: visit, at, find, size, transformReduce"])
P("C48", "Scoped parallelism limits nest correctly",
  "While guards are alive the limit is the minimum of all requested limits and the hardware limit, and after the guards are destroyed in reverse order the limit is what it was before.",
  "all nestings of guards",
  "All nesting depths and requested limits.",
  [I+"util/ScopeGuards.hpp: MaxParallelismGuard"])
P("C49", "MPI and Kokkos are initialised and finalised exactly once",
  "Over the life of any set of scope guards, including moves, the library is finalised exactly once iff a guard initialised it, and never by a guard that did not.",
  "all sequences of construction, move construction, move assignment and destruction of guards",
  "All histories of guard operations.",
  [I+"util/ScopeGuards.hpp: MpiScopeGuard, KokkosScopeGuard"])
P("C50", "Gmsh quads and hexes are imported with correct vertex order",
  "The imported quad has the vertices of the gmsh quad in lexicographic order with coordinates attached to the right vertices, adjacent vertices stay adjacent, and the orientation normal has non-negative z.",
  "all vertex ids and coordinates",
  "All coordinates, in particular clockwise and degenerate quads.",
  [I+"mesh/ReadMesh.hpp: makeElementFromNodeData"])
P("C51", "Polynomials: evaluation, derivative and integral",
  "evaluate is the value of the polynomial with the stored coefficients (highest first), derivative and integral evaluate to the derivative and an antiderivative, and the product evaluates to the product.",
  "all coefficients, orders and arguments (exact arithmetic)",
  "All orders and arguments.",
  [I+"math/Polynomial.hpp: evaluate, derivative, integral, operator*"])
P("C52", "Lagrange interpolation goes through the given points",
  "lagrangeInterp(x,y) evaluates to y[i] at x[i] for every i when the x are distinct.",
  "all numbers of points, all distinct abscissae, all values (exact arithmetic)",
  "All point sets.",
  [I+"math/LagrangeInterpolation.hpp: lagrangeInterp"])
P("C53", "Legendre polynomials satisfy the Legendre recurrence for every order",
  "getLegendrePolynomial<N> evaluates to P_N(x) defined by Bonnet's recurrence, for every N; in particular its value at 1 is 1.",
  "all N and x (exact arithmetic)",
  "All orders.",
  [I+"math/Legendre.hpp: getLegendrePolynomial"])
P("C54", "Dirichlet conditions are imposed without changing the other equations",
  "After applying Dirichlet conditions a vector solves the modified system iff its constrained entries have the prescribed values and it satisfies all original unconstrained equations; a symmetric matrix stays symmetric.",
  "all sparse matrices with diagonal entries, all sets of constrained unknowns, all prescribed values",
  "Algebraic equivalence for all matrices and sets.",
  [I+"bcs/DirichletBC.hpp: DirichletBCAlgebraic", I+"bcs/LocalDirichletBC.hpp"])
P("C55", "One-dimensional grids have the requested end points",
  "linspace, geomspace and the geometric progression helper return the requested number of points, start and end at the requested values and are strictly monotone.",
  "all end points, numbers of points and ratios (exact arithmetic)",
  "All parameters.",
  [I+"util/Common.hpp: linspaceArray, linspace, geomspace, geomSpaceProg"])

P("C56", "Boundary views point at the right side of the right element",
  "For every boundary element makeBoundaryElementViews produces one view, naming a domain element of the next dimension and one of its sides whose nodes are exactly the boundary element's; it throws iff some boundary element is no side of any such element or a boundary has no domain of the next dimension, whatever the order of the parallel visit.",
  "all meshes, all element orders, all boundary id lists, all schedules",
  "All meshes; the node order on a side is arbitrary.",
  [I+"mesh/MeshPartition.hpp: makeBoundaryElementViews, doesSideMatch, matchBoundaryNodesToElement", I+"mesh/MeshUtils.hpp: findDomainElement"])
P("C57", "A constructed mesh partition knows all of its nodes",
  "After construction every node of every element is owned or shared: the constructor with an explicit range owns that range and shares exactly the remaining nodes of its elements, ascending and without repetition; the constructor without one owns all nodes. Copies are equal.",
  "all domain maps, all owned ranges, all iteration orders of the hash sets",
  "All meshes; hash set iteration order.",
  [I+"mesh/MeshPartition.hpp: MeshPartition constructors, copy"])
P("C58", "Renumbering nodes keeps ownership and elements consistent",
  "reindexNodes with a map sending the owned ids onto a contiguous range and the shared ids outside of it replaces every node id everywhere, so that an id is owned (shared) afterwards iff it is the image of an id owned (shared) before.",
  "all meshes, all maps",
  "All maps and meshes.",
  [I+"mesh/MeshPartition.hpp: reindexNodes"])
P("C59", "Mesh visits and reductions touch every element exactly once",
  "Visiting a set of domains calls the visitor exactly once per element of those domains, in a fixed order when sequenced and in some order when parallel; unknown ids are ignored; transformReduce yields the fold over the same elements for every commutative monoid; getNElements counts them.",
  "all meshes, all id lists, all schedules",
  "All schedules.",
  [I+"mesh/MeshPartition.hpp: visitImpl, transformReduce, getNElements", I+"util/UniVector.hpp"])
P("C60", "Domains hold elements of one dimension only",
  "pushToDomain appends the element to the vector of its type and nothing else, fixes the dimension of the domain at the first push, and throws for an element of another dimension.",
  "all domains, all elements",
  "All push histories.",
  [I+"mesh/Domain.hpp: pushToDomain, emplaceInDomain"])
P("C61", "The matrix used to find polynomial roots has the roots as eigenvalues",
  "The companion matrix built by Polynomial::roots has a real number as eigenvalue iff the polynomial vanishes there.",
  "all polynomials of order at least one with non-zero leading coefficient, all reals (exact arithmetic)",
  "All orders and coefficients.",
  [I+"math/Polynomial.hpp: roots"])
P("C62", "The node order puts interior nodes side by side",
  "computeNodeOrder lists the owned nodes first and the shared nodes last, each exactly once, and the interior nodes of every element of the greatest dimension occupy consecutive places in their local order.",
  "all meshes for which it succeeds",
  "All meshes and element orders.",
  [I+"mesh/LocalMeshView.hpp: computeNodeOrder"])
P("C63", "The local mesh view contains every element once, with its boundary sides",
  "The local view of a mesh part has, for each domain that is not a boundary, exactly one view per element; the view carries the element's vertices, the local indices of its nodes in the full mesh, and for each side the boundary it lies on.",
  "all valid meshes with consecutive interior nodes, all traversal orders of the hash tables",
  "All meshes; reordering and lookup by element id interact.",
  [I+"mesh/LocalMeshView.hpp: LocalMeshView, makeElementIdToSidesMap"])

P("C64", "Reading a gmsh file yields the mesh the file describes",
  "For every well-formed ASCII 4 file readMesh succeeds; the domains are the physical groups, each holding exactly the elements of its blocks in file order, with ids counting elements, nodes numbered by their position in the file, coordinates attached to the right vertices; the mesh owns all its nodes.",
  "all files: any numbers of entities, blocks, nodes and elements, any tags",
  "All files, in particular empty blocks and nodes without elements.",
  [I+"mesh/ReadMesh.hpp: readMesh", I+"util/IO.hpp", I+"mesh/MeshPartition.hpp: MeshPartition(domains, boundary_ids)"])

P("C65", "Saved results are read back at the right nodes and fields",
  "save writes every owned value of every selected field exactly once, at disjoint places of the file, whatever the number of ranks and the order of the writes; opening the file yields the numbers of fields and nodes; loadResults then sets exactly the requested columns at exactly the mesh's nodes to the values the owning ranks saved.",
  "all rank counts, owned counts (also zero), field selections, comments, earlier file contents, write orders, old-node maps of the loading mesh",
  "All distributions and orders of concurrent writes.",
  [I+"post/NativeIO.hpp: save (results), LoadedResults, Loader::loadResultsImpl, loadMeshDirect", I+"comm/MpiComm.hpp: FileHandle::writeAtAsync"])
P("C66", "A saved mesh loads as the same parts or as their union",
  "A mesh file loaded by as many ranks as saved it gives every rank its part unchanged; any other number of ranks throws; loaded as a whole it gives a mesh with exactly the union of the parts' elements per domain, owning all nodes, with the same boundaries and views for all their elements; an incomplete file throws.",
  "all meshes and partitions, numbers of parts, comments, earlier file contents, write orders, file lengths",
  "All partitions and all truncations.",
  [I+"post/NativeIO.hpp: save (mesh), extractSavedPartitionInfo, loadPartitionedMesh, loadUnifiedMesh", I+"mesh/MeshUtils.hpp: serializeMesh, deserializeMesh"])

P("C67", "Basis functions are nodal, sum to one and reproduce polynomials",
  "For lines, quads and hexes of every order each basis function is 1 at its own node and 0 at all others, valueAt takes the nodal values at the nodes and reproduces every polynomial of at most the order in each variable, values sum to 1 and derivatives to 0, and the derivative functions are the partial derivatives of the basis functions; the tables at points hold these values.",
  "all element types, orders, distinct abscissae, points (also outside the element), nodal values and polynomials; exact arithmetic",
  "All orders and all polynomials; tests check a few orders at a few points.",
  [I+"basisfun/ReferenceBasisFunction.hpp: evaluateLineBasisFun, evaluateQuadBasisFun, evaluateHexBasisFun, their derivatives, computeRefBasis, computeRefBasisDers", I+"basisfun/ReferenceBasisAtPoints.hpp: evalRefBasisAtPoints", I+"basisfun/ValueAt.hpp: valueAt"])
P("C70", "The nodes along an edge ascend strictly from -1 to 1",
  "For every number of points the Lobatto abscissae are strictly ascending, start at -1, end at 1, and are exactly the ends and the zeros of the derivative of the Legendre polynomial, which are all real and simple.",
  "all numbers of points; any root finder that returns all zeros, sorted; exact arithmetic",
  "All orders.",
  [I+"math/LobattoRuleAbsc.hpp: computeLobattoRuleAbsc", I+"math/Lobatto.hpp: getLobattoPolynomial", I+"math/Polynomial.hpp: roots"])

P("C69", "Quadratures integrate polynomials up to their order exactly",
  "The Gauss-Legendre quadrature of order QO has positive weights, all points inside the element, along a line strictly ascending at exactly the zeros of the Legendre polynomial, and integrates every polynomial of at most degree QO in each variable exactly over the reference line, square and cube; evalQuadrature adds exactly the weighted values to its start value.",
  "all orders, element types and polynomials; any eigenvalue solver that returns the sorted eigenvalues and an orthonormal basis of eigenvectors; exact arithmetic",
  "All orders and all polynomials.",
  [I+"math/ComputeGaussRule.hpp: computeGaussRule", I+"quad/ReferenceQuadrature.hpp", I+"quad/GenerateQuadrature.hpp: getQuadrature", I+"quad/EvalQuadrature.hpp: evalQuadrature"])

P("C68", "The element mapping, its Jacobi matrix, gradients, side points and normals are consistent",
  "The mapping takes reference corners to vertices; the Jacobi matrix is its derivative; the physical basis derivatives give the exact gradient of every field that is a polynomial of at most the order in reference variables; side quadrature points lie exactly on their side, isometrically; the boundary Jacobian is the area of the derivatives of the mapped side; the normal is a unit vector, orthogonal to the side, outward for positive determinants, and satisfies Nanson's formula.",
  "all element types, orders, vertex positions, points and fields; exact arithmetic",
  "All element shapes and fields; sign and side conventions of six tables must agree.",
  [I+"mapping/JacobiMat.hpp", I+"mapping/MapReferenceToPhysical.hpp", I+"mapping/ComputePhysBasisDer.hpp", I+"mapping/BoundaryIntegralJacobian.hpp", I+"mapping/BoundaryNormal.hpp", I+"mapping/ReferenceBoundaryToSideMapping.hpp", I+"math/RotationMatrix.hpp", I+"basisfun/ReferenceElementBasisAtQuadrature.hpp: getReferenceBasisAtBoundaryQuadrature"])

P("C71", "Exported VTK files describe the mesh and the fields exactly",
  "After all writes of an export, performed in any order over any old file, the file is the description, the appended data and the closing tags; every array named in the description is found at its offset as Base64 text of its size and data; a reader gets exactly the cells into which the nodes cut the elements (VTK corner order, local node numbers), the coordinates of every node and the field values, vectors padded to three components; the attributes name the first scalar and the first vector.",
  "all meshes, orders, field groupings, ownerships, schedules, write orders, old files and Base64 code paths",
  "All orders of parallel stores and writes, all sizes modulo 3, all element orders.",
  [I+"post/VtkExport.hpp: serializeElementSubtopo, serializeTopology, makeCoordsSerialized, encodeFieldImpl, encodeField, makeDataDescription, enqueueVtuFileWrite, appendPvtuPointDataDef"])

P("C72", "Evaluating an element's operator equals multiplying by its matrix",
  "For every sequence of elements evaluated on one thread, the result for each is the element matrix of the assembled path times the operand, whatever the batch size and the old buffer contents; the precomputed diagonal is that of the matrix and the precomputed right-hand side that of the element minus the Dirichlet columns times their values. The batch size is positive, and batch and operand fit the cache for which it was chosen.",
  "all kernels, numbers of unknowns, equations, bases and points, batch sizes, Dirichlet sets and histories of a thread",
  "The batch size depends on the caches of the machine; all combinations of open batches, equations and operand widths cannot be enumerated.",
  [I+"algsys/EvaluateLocalOperator.hpp: OperatorEvaluationManager, batchSizeHeuristic, evaluateLocalOperator, precomputeOperatorDiagonalAndRhs"])

P("C73", "Sum factorisation gives the same element result as direct evaluation",
  "For quadrilaterals and hexahedra the buffer produced by the one-dimensional sweeps is the element matrix of the direct evaluation times the operand, with the plain and with the odd-even sweeps, every block size, and whatever the reused buffers held before; no access is out of bounds. The symmetry of points, nodes and matrices on which the odd-even sweeps rest holds for every order.",
  "all element orders, quadrature orders, vertex positions, numbers of unknowns, equations, right-hand sides and fields, kernels, operands and buffer contents; exact arithmetic",
  "Every combination of orders and SIMD widths takes different sweeps and buffer layouts; tests cover a few.",
  [I+"algsys/SumFactorization.hpp: evalLocalOperatorSumFact, sumFactImpl, sumFactBackQuad, sumFactBackHex, sumFactForwardQuad, sumFactForwardHex, evalAtQuadQPs, evalAtHexQPs, sweeps, makeEO, reconstructOddEven"])
P("C74", "All ranks agree on the Dirichlet unknowns of a matrix-free system",
  "After construction every rank knows, for each of its owned and shared unknowns, whether some element of some rank has it on a side in a boundary where its component is prescribed, or whether it is the one unknown chosen for a normalised component; nothing else is marked. The owned ones are listed once, ascending. The user's definition is recorded faithfully and a component number out of range throws.",
  "all meshes, partitions, dof maps, boundary definitions, numbers of ranks, orders in which threads set flags and in which messages arrive",
  "A marker missing on one rank only shows when a boundary ends exactly at a partition interface; it makes ranks disagree about the system silently.",
  [I+"bcs/LocalDirichletBC.hpp: LocalDirichletBC, getNormalizationDofs", I+"bcs/BCDefinition.hpp: DirichletBCDefinition, BCDefinition"])
P("C75", "The matrix-free operator is the assembled one with Dirichlet rows and columns replaced",
  "apply computes y := beta y + alpha A x on all ranks, where A is the sum of all element matrices with the rows and columns of prescribed unknowns replaced by those of the identity, for any mixture of direct and sum-factorised kernels and any interleaving of interior work, border work and messages. The precomputed diagonal and right-hand side belong to the same system; its solutions are those of the assembled equations that take the prescribed values. Calls with unsuitable numbers of columns throw, no access is out of bounds.",
  "all partitions, dof maps, jobs, element matrices over any commutative ring, operands, numbers of columns, scale factors, schedules of threads and messages",
  "Overlap of communication and computation depends on timing: the border may run in the middle of the interior or after it, and a shared unknown may be added to by any number of ranks.",
  [I+"algsys/MatrixFreeSystem.hpp: applyImpl, computeDiagAndRhs, makeEvalKernel, makeInitKernel, gather, gatherSumFact, scatter, scatterSumFact, scatterInit, getDirichletIndsSumFact"])
P("C76", "Raising the order of a mesh numbers every point once",
  "Converting a conforming unpartitioned mesh of order 1 keeps domains, types, ids, vertices and boundaries and gives every element the nodes of the new order. Two nodes of any two elements have the same number exactly if they are the same point (the same combination of the vertices), old nodes keep their numbers, the numbers are 0 to N'-1 without gaps, sides of elements remain sides, and the result satisfies what partitioning requires. No access is out of bounds and nothing throws.",
  "all conforming meshes of lines, quadrilaterals and hexahedra in all orientations, orders, domain numberings, dual graphs and schedules; exact arithmetic",
  "How two elements are oriented against each other, which of them is visited first, and through which third element they share nodes depends on the whole mesh; a wrong match gives a valid-looking mesh with cracks.",
  [I+"mesh/ConvertMeshToOrder.hpp: convertMeshToOrder", I+"mesh/ElementIntersecting.hpp: element_outer_features, elementIntersectionSpans, elementIntersection, updateMatchMask", I+"mesh/MeshUtils.hpp: computeMeshDual", I+"mesh/NodePhysicalLocation.hpp: nodePhysicalLocation"])

P("C77", "Integrals and norms do not depend on how the mesh is distributed",
  "For every partition of a mesh, every schedule and every kernel, each rank's part of an integral is computed without error and the reduced result is the sum over all elements of the given domains (for boundary integrals: over all boundary elements, each as a side of an element it is attached to), each counted once, of the integral of the kernel over the element. The kernel is given the value and the gradient in space of the polynomial through the nodal values of the fields, the point, the time and, on boundaries, the outer unit normal; the quadrature is exact for polynomials of the chosen order. Norms use twice the order; if the mapping is orientation preserving the squared norm has no negative contribution, and if integration is exact the norm vanishes exactly if the kernel vanishes in all elements. All columns of a kernel with several right-hand sides are integrated (false: only the first is reduced). The order chosen from the numbers of values and derivatives in a product is the degree of the product on lines, exactly; on quads and hexes it is too low as soon as derivatives are multiplied (refuted).",
  "all meshes, partitions, ownerships, fields, kernels, element types and orders, quadrature orders and parallel schedules; exact arithmetic; boundaries of lines excluded",
  "A wrong local index of a ghost node, an element counted on two ranks, or a gradient transformed with the wrong Jacobian shows only for particular partitions and curved data; tests integrate constants on boxes.",
  [I+"post/Integral.hpp: computeIntegral, evalLocalIntegral, evalElementIntegral, evalElementBoundaryIntegral", I+"post/NormL2.hpp: computeNormL2", I+"post/FieldAccess.hpp: FieldAccess", I+"algsys/AssembleLocalSystem.hpp: evalKernel, AssemblyOptions", I+"mesh/MeshPartition.hpp: transformReduce, transformReduceBoundaries"])

P("C78", "Native preconditioners are the operators they stand for; solvers can be reused for the same objects",
  "One sweep of a native preconditioner computes alpha M X + beta Y, where M is the damping factor (Richardson) or the damped inverse of the diagonal with entries below the threshold replaced (Jacobi); M has the signs of the diagonal and is bounded by damping / threshold. k sweeps compute alpha (1 + ... + beta^(k-1)) M X + beta^k Y, which is neither the operator nor k steps of a relaxation (refuted). A solver object used any number of times with the same A, b and x solves with their contents at each call, with the preconditioner of the first; used with other objects it solves the first system again (refuted), and after a failed set-up it goes on without one (refuted). A preconditioner for matrices given another operator is undefined behaviour.",
  "all sizes, numbers of columns, damping factors, thresholds, sweeps, alpha, beta; all histories of calls and changes of memory between them; every behaviour of Belos, Amesos2 and Ifpack2; exact arithmetic",
  "Tests use one sweep and a new solver for every solve.",
  [I+"solve/NativePreconditioners.hpp: NativeRichardsonImpl, NativeJacobiImpl", I+"solve/PreconditionerInterface.hpp: initPreconditioner", I+"solve/BelosSolvers.hpp: BelosSolverInterface", I+"solve/Amesos2Solvers.hpp: Amesos2SolverInterface"])

P("C79", "The assembled system is the sum of all local systems, with the Dirichlet conditions imposed",
  "Assembly over distributed mesh parts succeeds, and row i of the result, stored once, on the rank that owns unknown i, has exactly the entries and right-hand sides that are the sums over the local systems of all elements of all ranks, in every order of the threads' atomic additions and of the messages; calling beginAssembly on a closed system starts from zero; stages are checked. Every rank finds the constrained unknowns among its rows and columns (at nodes of boundary elements of any rank; the least unknown of a normalised component). The solutions of the system with Dirichlet conditions are the vectors with the prescribed values at constrained unknowns that satisfy the other equations. Kernels whose components are spread over two definitions lose entries, kernels and conditions with absent components index out of bounds (refuted).",
  "all meshes, partitions, definitions, numbers of right-hand sides, sequences of assembleProblem calls and element matrices; all orders of additions and messages; values in any ring",
  "Tests assemble one mesh on one partition and look at the error of the solution; lost couplings and races of additions depend on definitions and schedules that no test has.",
  [I+"algsys/AssembledSystem.hpp: AssembledSystem::beginAssembly, endAssembly, assembleProblem, applyDirichletBCs, getMatrix, getRhs, setDirichletBCValues", I+"algsys/AssembleGlobalSystem.hpp: assembleGlobalSystem", I+"algsys/ScatterLocalSystem.hpp: scatterLocalSystem", I+"algsys/StaticCondensationManager.hpp: StaticCondensationManager<None>::condenseSystemImpl", I+"bcs/GetDirichletDofs.hpp: getDirichletDofs"])

P("C80", "Merging two meshes joins them at the nodes that are at the same place",
  "merge of two unpartitioned meshes whose boundary nodes coincide or keep a distance identifies exactly the boundary nodes of the two meshes that are at the same point. In the result every node of every element is where it was, every place has one node, the elements are those of both meshes except the boundary elements that have the same corners as a boundary element of the other mesh, and the boundaries are those that still have an element. Only boundary nodes nearer than the tolerance are ever identified. This holds provided the conversion of NaN to an integer gives no extreme value, or all nodes are on boundaries; where it gives the least integer, a node inside the second mesh makes merge undefined (refuted). Nodes nearer than the tolerance may be missed (refuted). deform keeps a mesh valid and moves its nodes.",
  "all meshes of order 1 with coordinates up to 10^5, all boundaries, schedules of the parallel visit and orders of traversing the hash map; exact arithmetic with NaN",
  "Whether a stray NaN does harm depends on the machine and the order of a hash map; the sanitizer sees the overflow only with an inner node and the tests look at the number of nodes and elements.",
  [I+"mesh/MeshUtils.hpp: makeBoundaryNodeCoordsMap, initSpaceHashTable, invertNodeCoordMap, matchExistingNodes, merge, deform", I+"util/SpatialHashTable.hpp: SpatialHashTable::proximate, snapToGrid", I+"util/Functional.hpp: Min", I+"mesh/primitives/SquareMesh.hpp: makeSquareMesh"])

P("C81", "The mesh of a channel with a cylinder consists of fitting parts and has no bad element",
  "makeCylinderInChannel2DMesh makes ten grid meshes (two halves of a ring, four parts between ring and walls, four corners). Neighbouring parts have the same nodes on their common sides. The outer sides lie on the walls of the channel, the inner side of the ring on the circle. With a positive inner radius every quadrilateral is convex and counterclockwise, and every node is in the channel and not inside the cylinder. The merged mesh has one position per node, its quadrilaterals are the cells of the parts, and its edges lie on sides of parts with their id. correct() and distinct ids are not enough: domain id 1 makes the function throw, and an inner radius of 0 is accepted and gives degenerate elements (both refuted).",
  "all geometries accepted by correct() with positive radius (numbers of elements, gradings, offsets), all ids where the domain id is not a boundary id nor 1, 2, 3, 4; all schedules; all matchings that pair nodes at the same position; real arithmetic",
  "Tests build the mesh for a few geometries and count elements; a mismatch on an interface, a folded element or a clash of ids appears only for some combination of seventeen parameters.",
  [I+"mesh/primitives/CylinderInChannel2D.hpp: makeCylinderInChannel2DMesh, CylinderInChannel2DGeometry::correct", I+"mesh/primitives/SquareMesh.hpp: makeSquareMesh", I+"mesh/MeshUtils.hpp: deform, copy, merge", I+"util/Common.hpp: geomSpaceProg, linspace"])

P("C82", "The Robin Hood hash table is a map",
  "For every hash function and every sequence of emplace, insert_or_assign, erase, clear and reserve, the table either throws the overflow error or is the map that these changes describe: find gives every key its last value and nothing for absent keys, size() is the number of keys, and iteration from begin() to end() visits every key once. Distances are kept in bytes that may be halved in precision; no byte ever overflows, nothing is read or written outside the arrays, no dead node is used and no live one is constructed over. With at most 125 keys at any time it never throws, whatever the hash. At most 127 keys with the same hash fit: unlike a map of the standard library, the table throws for 128 such keys (refuted).",
  "all key and value types, all hash functions (as a function of the key and the number of changes of the multiplier), all sequences of changes",
  "The info bytes overflow only for long chains of collisions, which tests with a good hash never produce; a lost element would show up only with a special set of keys and a special order of erasures.",
  [I+"util/RobinHoodHashTables.hpp: Table::keyToIdx, findIdx, nextWhileLess, insertKeyPrepareEmptySpot, shiftUp, shiftDown, insert_move, try_increase_info, increase_size, rehashPowerOfTwo, erase, clear, reserve, Iter::fastForward, begin, end"])

P("C83", "The constexpr vector is a sequence and owns its memory",
  "Consider any program with any number of vectors: construction from a value or a list, copy and move construction, move assignment, pushBack of a value or of an own element, popBack, clear, reserve. If no precondition of a sequence is violated and no vector gets an own element pushed, then every vector holds the sequence that the operations describe, no cell is read while no object lives in it, no object is constructed over another, no block is freed twice or used after being freed, and after the destructors every block has been freed. Pushing an own element works while the capacity exceeds the size; for a full vector it reads the freed block (refuted that a vector behaves like a sequence, as std::vector does).",
  "all element types and values, all programs over all numbers of vectors",
  "A leak, a double free or a use after free depends on the order of operations and on the capacities, and usually stays without visible effect.",
  [I+"util/ConstexprVector.hpp: ConstexprVector constructors, operator=, ~ConstexprVector, reserve, emplaceBack, pushBack, popBack, clear, construct, destroy, reallocate, deallocate, grow"])

P("C84", "The solution manager keeps every field apart",
  "After any sequence of changes to existing fields and nodes (setFields with a value, writes through field views, writes through the raw view), every field has at every node what was written there last, and no access leaves the array. A field access for existing fields, taken at any time, reads the current values, for local and for global node ids. getFieldAccess never replaces an index by another one: it throws if the index does not fit 32 bits. The deprecated makeFieldValueGetter for ranges does replace it (refuted), and an access to a field that does not exist is handed out and reads out of bounds (refuted that it is rejected).",
  "all ownerships, numbers of fields, value types, sequences of changes, standard integer types of indices, lists of fields and nodes",
  "A wrong stride or layout shows only for several fields with different values; wrapped indices need values above 32 bits.",
  [I+"post/SolutionManager.hpp: SolutionManager, getFieldView, getRawView, setFields, getFieldAccess, makeFieldValueGetter", I+"post/FieldAccess.hpp: fill, getLocallyIndexed, getGloballyIndexed"])

P("C85", "References into the reference-stable collection stay valid",
  "For every block size above 0 and every sequence of pushes of values and of own elements, the collection is the sequence of what was pushed: size(), operator[] and the iteration from begin() to end() agree with it. All references that emplace returned are different, equal to those of operator[], and keep both their place and their value while more is pushed; memory of others is not touched. The postfix increment and decrement of its iterator neither move the iterator nor return the old one (refuted that they behave like those of a random access iterator).",
  "all element types, block sizes, contents of the rest of the heap and sequences of pushes",
  "A wrong block index shows only at block boundaries; a moved block leaves references that still seem to work.",
  [I+"util/ConstexprRefStableCollection.hpp: ConstexprRefStableCollection::getInds, operator[], emplace, push, grow, Iterator, constexprMakeUnique"])

P("C86", "The constexpr unique pointer frees its object exactly once",
  "For every program of constexprMakeUnique, move constructions, move assignments and final destruction of all pointers: nothing is freed twice or used after being freed, no two pointers own the same object, and a pointer refers to the object that was moved to it. If every move assignment has a null target, everything is freed. It is refuted that everything is freed in general: exactly one object leaks for each move assignment to a pointer that owns an object.",
  "all element types and all programs over all numbers of pointers",
  "A leak has no visible effect; at compile time it shows only if the pointer is assigned in a constant expression.",
  [I+"util/ConstexprRefStableCollection.hpp: ConstexprUniquePtr, constexprMakeUnique"])

P("C87", "Problem definitions activate exactly what was requested",
  "After any sequence of ProblemDefinition::define calls (those that threw included), an unknown is active in a domain exactly when some accepted call named both; a call is accepted exactly when all its unknowns exist; getDomains is the ascending, repetition-free list of the domains of accepted calls. defineDomain flags exactly the named fields or throws, and ProblemDef pads all domains to the largest number of fields without adding or losing one.",
  "all numbers of unknowns, all sequences of calls, all index and domain lists",
  "Tests use a few hand-written definitions; overlapping domains, repeated indices and caught exceptions combine without bound.",
  [I+"common/ProblemDefinition.hpp: defineDomain, ProblemDef, extendDomainDef, ProblemDefinition::define, getDomains"])
P("C88", "intDivRoundUp rounds the quotient up",
  "For every integral type, the result q of intDivRoundUp(n, d) satisfies (q-1)*d < n <= q*d and is computed without overflow.",
  "all types, all n and all positive d",
  "The operand space is the square of a 64-bit type.",
  [I+"math/IntegerMath.hpp: intDivRoundUp"])
P("C89", "GraphWrapper owns and copies METIS graphs correctly",
  "In every program that makes, copies, assigns and moves GraphWrapper objects (and copies none that was moved from), getElementAdjacent gives the neighbours of each vertex of the graph the object stands for, copies are independent of their originals, and every block is freed exactly once.",
  "all programs over any number of graphs, all graphs",
  "Memory errors depend on the sequence of copies, moves and destructions, which has no bound.",
  [I+"util/MetisUtils.hpp: GraphWrapper, getElementAdjacent"])
P("C90", "WeakCache gives the last emplaced object while it is held",
  "In every program of emplace, get, and copies and resets of the shared pointers obtained, get(key) gives the object last emplaced under the key if the program still holds a pointer to it and null otherwise; held pointers always refer to their value; objects live exactly as long as they are held; contains(key) tells whether the key was ever emplaced.",
  "all programs, all keys and values",
  "The outcome depends on the order of emplacements and releases, which has no bound.",
  [I+"util/WeakCache.hpp: contains, get, emplace"])
P("C91", "ArrayOwner owns its elements, and at is checked access",
  "In every program that makes, copies, moves and writes ArrayOwner objects, each array has the elements it stands for, copies are independent of their originals, at gives the element or throws exactly outside the array, nothing undefined happens, and every block is deleted exactly once.",
  "all programs over any number of arrays, all element lists",
  "Memory errors depend on the sequence of copies, moves and destructions, which has no bound.",
  [I+"util/ArrayOwner.hpp: constructors, at, implicit moves and destructor, copy"])
P("C92", "TypeErasedOverload calls, moves and destroys its target correctly",
  "In every program that makes, moves and assigns TypeErasedOverload objects with targets in the buffer or on the heap, nothing undefined happens; a call of an object that has a target reaches that target; operator bool is false exactly for objects that have no target type; every target is destroyed exactly once.",
  "all programs over any number of objects, all targets of both sizes",
  "Memory errors depend on the sequence of moves and destructions and on the sizes of the targets, which has no bound.",
  [I+"util/TypeErasedOverload.hpp: TypeErasedOverload, TypeErasedInvoker, initTarget, makeSpecialMemberImpl, moveImpl, dtorImpl"])
P("C93", "integralPower and smallest_integral_t are exact",
  "integralPower gives the power modulo the range for unsigned types; for signed types it gives the power when that is representable and overflows otherwise. smallest_integral_t can represent everything between both bounds, no standard type of the same signedness with fewer bits can, and it does not exist exactly when no type of at most 64 bits fits.",
  "all bases and exponents, all widths, all pairs of bounds",
  "Both take 64-bit arguments; tests cover the few values the library uses.",
  [I+"util/Common.hpp: integralPower, SmallestIntegralImpl, smallest_integral_t"])
with open("/verif/properties.jsonl", "w") as f:
    for p in out:
        f.write(json.dumps(p) + "\n")
print(len(out))
