# Formal model of L3STER: design

Source: `/repo` (kubagalecki/L3STER, pinned commit), read as text. Prover: Coq 8.16.1.
All Coq sources are in `rocq/theories/`. Properties are listed in `properties.jsonl`,
their status in `MANIFEST.json`, mutation experiments in `seeded/LOG.jsonl`.

In the log, `theorems_failed` lists theorems whose proof, or the proof of a lemma they rest on,
no longer compiles after the edit (also for lack of time or memory). This does not show that
the statement became false: a script may break for an edit that changes nothing. Entries where
this was noticed carry a note ("Not a detection", or "equivalent" in older entries).

## 1. Conventions

* For each topic `X` there are up to four files.
  `X_model.v` transcribes the C++ functions (each definition cites file and lines),
  `X_spec.v` states what the functions should do without using the model's helpers,
  `X_proofs.v` has the lemmas, and
  `X_props.v` holds only the property theorems, each closed by `exact lemma`, an example that
  meets its hypotheses, and `Print Assumptions`.
* C++ outcomes. `res A` (file `Base.v`) is `Ok a` (normal return), `Throw` (a `throwingAssert` fired),
  or `UB` (undefined behaviour: out-of-bounds access, dereferencing `end()`, ...).
  Reads and writes of arrays in the model go through bounds-checked accessors that return `UB`.
* Integers. Sizes and indices are `nat` (or `N`/`Z`) where the code only counts things that fit in memory.
  Machine words appear as `N` with explicit `mod 2^64` (or masks) where bits or wrap-around matter.
* Floating point is modelled by exact arithmetic over a field (`Q`, `R` or an abstract field); rounding is not modelled.
* MPI, METIS, TBB, Tpetra/Kokkos are not modelled as code. Their documented effect appears either as a
  transition relation (message passing, interleaving) or as an arbitrary function argument (partitioner answer).
* When a claim is false of the code as written, the theorem is `..._refuted` with a concrete witness,
  and a `..._partial` theorem states the largest true part.

## 2. Trusted base

* Coq's kernel (8.16.1), and the axioms printed by `Print Assumptions` under each theorem (section 5 lists them).
* The correspondence between the definitions in `*_model.v` and the cited C++ lines, by reading.
* What is modelled: the functions cited in the comments of `*_model.v`.
  What is not: everything else (listed in section 6).

## 3. Plan per property

| Id | What is modelled | How it is proved |
|----|------------------|------------------|
| C01 | the table, the four 6-bit extractions, the scalar loop, remainder, the AVX2 lane arithmetic on one 24-byte block, the pointer advance and block loop | scalar = RFC by induction in steps of 3; SIMD lane arithmetic = scalar by bit-level case analysis; chunking by append lemma |
| C02 | as C01; independent RFC decoder in the spec | decode (encode l) = l by induction in steps of 3 |
| C03 | word vector, all operations | refinement to `list bool`, invariant: unused high bits are 0 |
| C04 | `SubView::count` with its mask loops | popcount of masked words = count on the sub-list |
| C05 | each atomic op is one step on a word; threads are lists of ops, schedules are interleavings | per-bit projection of the word steps; sets commute |
| C06 | as C03 plus shrinking `resize` | refuted with a witness; true part: growing, or shrinking to cleared bits |
| C07 | `SegmentedOwnership` constructor, lookups with real `lower_bound` | sortedness and binary-search lemmas |
| C08 | inclusive scan, `upper_bound` | search lemma on monotone prefix sums |
| C09 | both neighbour maps as functions of all ranks' ownerships, message exchange | transpose lemma |
| C10, C11 | pack, offsets, send/recv lists per vector, unpack as steps in arbitrary order | per-message correctness + commutation of steps |
| C12 | `tryReceive` as a small-step program with lock and flag, arbitrary number of threads | inductive invariant over all interleavings |
| C13 | `makeTag` bit arithmetic | injectivity on the bit fields |
| C14 | size checks and the ranges touched | refuted for later `setNumVecs`; partial for fixed configuration |
| C15 | the ring loop as a function on all ranks | induction over rounds |
| C16 | byte-level archive | induction over a universe of types; prefix lemma for truncation |
| C17 | composition of C16 for mesh records | as C16 |
| C18-C21 | the partition pipeline, METIS answer as argument | permutation/count lemmas, loop invariants |
| C22 | merge after the coordinate match (`Merge_*`) | invariant of the copied domains; counting lemmas for closing gaps |
| C23 | extrude (`Extrude_*`) | explicit index arithmetic |
| C24, C25 | mesh generators as list builders | index arithmetic (div/mod) and counting |
| C26 | `ElementTraits` tables as functions of order | membership characterisation and counting |
| C27 | `findImpl` with its shortcut | binary search lemma; refuted for unsorted ids |
| C28 | explicit-stack DFS | reachability invariant |
| C29 | CRS construction with cursors | loop invariant |
| C30, C31 | helpers | sorting/permutation library lemmas |
| C32 | casts on all type pairs | arithmetic; refuted for completeness |
| C33 | `lround`, cell map, the computed quotient as a function | rational arithmetic; the hit list is a filter of the inserted list |
| C34 | splitting trees | induction on the tree |
| C35, C36, C62, C63 | `LocalView_*`: local views, reordering loop, node order | scatter lemmas; loop invariant; counting |
| C37 | `Split_*`: the two domain maps as in C18 | insertion invariant of C18; owned nodes refuted if not contiguous, partial |
| C38 | permuteMesh renumbering | refuted for order-changing permutations; partial |
| C39, C40 | numbering pipeline over all ranks | prefix sums and injectivity; periodic map |
| C41 | count/fill/sort algorithm with arbitrary schedules; serialised exchange | multiset invariant |
| C42 | index computation | refuted for unordered components; partial |
| C44 | batches as columns of a buffer; state invariant: system + pending batches = weighted sum | refuted for an element that throws; partial |
| C43 | assembly, elimination and recovery over a commutative ring with a given inverse | sums over lists, Schur complement |
| C45 | per rank: counts and sums of border and interior contributions; exports and imports by their proved effect (C10, C11) | kernels and SolutionManager proved for < 2^16 contributions per index; constant overload refuted, partial |
| C46, C47 | containers | refinement to lists |
| C48, C49 | guards as transition systems | stack invariant; refuted for move assignment |
| C50 | makeElementFromNodeData over rationals; places of vertices from the gmsh manual | proved; Jacobian positive for strictly convex quads, straight first corner refuted |
| C64 | file as tokens; writer in the spec; parser composition lemmas | refuted for empty node blocks and unused nodes; partial |
| C65 | `Store_*`: file as bytes, ranks' writes in any order | disjoint writes are found again; slices of the file; loop invariant of loadResults |
| C66 | `Store_*`: header, parts, joining of domains | as C65, with C17 per part; invariant of the joined map; prefix lemmas for cut files |
| C67 | `Basis_*`: 1D Lagrange polynomials, tensor products | a polynomial with too many zeros is zero; uniqueness of interpolation gives reproduction in one variable, then one variable at a time |
| C68 | `Geom_*`: Jacobi matrices as lists of rows, Eigen's determinant and inverse written out, rotations by sine and cosine | chain rule for Frechet differentiable fields; the rotations are signed permutations; polynomial identities per side |
| C69 | `Gauss_*`: the symmetric tridiagonal matrix, the eigenvalue solver by contract, tensor products | eigenvectors are the Legendre polynomials at the eigenvalues; orthogonality of the solver's basis gives the discrete, integration by parts the continuous orthogonality; hence exactness up to degree 2n-1 |
| C70 | `Basis_model`: Legendre and Lobatto polynomials, root finder by contract | induction on the order with interlacing zeros (intermediate values), mean values for the derivative |
| C71 | `Vtk_model`: topology, coordinates, fields and layout of the .vtu file; the XML text is an arbitrary function of the description record | invariants over the element loop, stores in any order, writes in any order, C01 for the Base64 text |
| C72 | `OpEval_model`: the batch buffer of the operator evaluation manager, diagonal and right-hand side; matrices are functions of two indices over any commutative ring, BLAS products are sums | invariant: result + open batch = matrix times operand; refuted after a throw; partial |
| C73 | `SumFact_model`: sweeps, odd-even blocks, buffer reuse of the four transforms, values at points; buffers are lists with arbitrary initial contents, numbers are reals; the direct evaluation beside it | transforms as digit sums over the tensor grid; symmetry of Gauss points and Lobatto nodes from the parity of Legendre polynomials; refuted for kernels that use z; partial |
| C74 | `LocalBC_model`: the boundary definition, marking of flags per view, normalisation (search and reduction), export with `or`, import, set and sorted list; order of flag writes, of combining and of the hash table arbitrary | exchange lemma over a commutative monoid (`Exch_proofs`) with `or`; refuted for normalised components that live on few nodes; partial there, full without normalisation |
| C75 | `MatFree_model`: `eval_job` (direct and sum-factorised), Dirichlet handling, `two_phases` with every `schedule`, import and export by their effect (C10, C11), `applied`, `computeDiagAndRhs`; `MatFree_spec`: assembled matrix `Amat` as a sum over jobs, `Adir` | per-job sums over unknowns, exchanged over ranks by the monoid lemma of C74; element kernels are contracts `applies`/`initialises` discharged by C72 and C73; diagonal refuted for identified unknowns |
| C76 | `Convert_model`: outer features, spans, intersections, the loop over elements with the neighbours' nodes, boundary reconstruction; `Convert_spec`: nodes as combinations of vertices (`weight`, `same_point`), `conforming`, `converted` | feature tables are the faces of a cube with some axes fixed; a shared point is found through a neighbour because its support is a common face; invariant over visited elements; the tolerance enters through `resolved` only |
| C77 | `Integral_model`: `fields` (FieldAccess), kernel input at a point, `domain_value`, `boundary_value`, `evalQuad`, `element_integral`, `side_integral`, the reductions over a part, `all_reduce`, norms; `Integral_spec`: `geometry`, `sees` (value and gradient of the interpolating polynomial), `contributes`, `side_contributes`, `quadrature_of`, `holds`, `setting` | interpolation by the basis (C51, C67), chain rule with the inverse Jacobi matrix (C68), exact quadrature (C69); local index = position among owned and shared nodes; sums over parts are permutations of the sum over the mesh (C18), with the renumbering undone on the elements; a non-negative function with integral 0 vanishes (mean value theorem) |
| C78 | `Precond_model`: multivectors as columns, `apply_richardson`, `apply_jacobi`, `jacobi_init`, `initPreconditioner`; objects behind addresses, `belos_solve` and `amesos_solve` with the members a solver keeps; Belos, Amesos2 and Ifpack2 are parameters. `Precond_spec`: `applied` (alpha M X + beta Y), `relaxed` (steps of the relaxation) | induction on the sweeps; invariant of the solver's state over all histories of calls |
| C79 | `Assembly_model`: `call_steps` (local system to atomic additions), `do_step` (`sumIntoLocalValues`), `assemble_rank`, `end_rank` (export of shared rows and of the right-hand sides), `apply_rank` (C54), stages, `beginAssembly`, `assembleProblem`, `endAssembly`, `setDirichletBCValues`, `getSystem`; `getDirichletDofs` with the minimum over ranks, marks, export and import. Element matrices and prescribed values are arguments (C44, C45). `Assembly_spec`: `Amat`, `Bvec` (sums over the calls of all ranks), `is_system`, `Adir`, `Bdir`, `constrained` | additions commute, so a rank holds the sum of its calls; an owned row collects the shared rows of the others, whose columns it has by C41; `world` from mesh parts by C39 and C41; marks: count > 0 iff some rank marks; elimination by C54's lemmas, then equivalence of solutions |
| C80 | `Match_model`: numbers with NaN (`None`), `makeBoundaryNodeCoordsMap`, bounding box and cell size, `snap` (`lround` of NaN and of numbers that do not fit is a parameter), lazy search of the 27 cells with overflow as UB, `match_map`, `merge_meshes` (with C22's `merge`), `deform`. Coordinates are rational and the arithmetic on them exact; concurrent stores of different points for one node are not modelled. `Match_spec`: `same_point`, `near`, `moderate` (up to 10^5), `located`, `fitting`, `same_place` | invariant of the table of coordinates over all schedules; keys stay in range by the least cell size; equal points have equal keys; then C22 with the map found; square meshes from C24 |
| C81 | `Cyl_model`: `correct`, `rotate`, `make_half`, `make_wake`, `make_corner`, `make_parts`, `makeCylinderInChannel2DMesh` over the real numbers, with C24's `makeSquareMesh`, C22's `merge` and C55's grids; the matching of nodes (C80) is a parameter. The halves of the ring are merged together with the other parts (C++: before these are made). `Cyl_spec`: closed positions (`graded`, `half_pt`, `wake_pt`, `corner_pt`, `turned`), `layout`, `is_part`, `convex4`, `in_channel`, `matches` | C24 for repeated boundary ids, carried through `deform` and `copy`; trigonometric identities; cross products of trapezoids and sectors; C22 over the list of parts with an invariant on keys, dimensions and positions |
| C82 | `Robin_model`: the members of `Table` with bytes of info and nodes that are alive or not; `findIdx`, `shiftUp`, `shiftDown`, `insertKeyPrepareEmptySpot` (`prepare`), `insert_move`, `try_increase_info`, `increase_size`, `rehashPowerOfTwo`, `erase`, `clear`, `reserve`, `fast_forward`, iteration. The hash after mixing is a parameter that depends on the number of changes of the multiplier; sizes do not overflow; moved-from objects keep their value; copies and moves of tables and the table after an exception are left out. `Robin_spec`: `changed`, `history`, `has_size`, `at_most` | invariant `shape` of info and nodes (info = info of the key at home + distance · increment, sorted along chains, sentinel, bytes below 256); insertion, erasure and halving keep it; loops by walking along the chain of a key; with few keys the info of steps of 2 stays below 256 and a place is found in three rounds |
| C83 | `CVec_model`: vectors on a heap of blocks whose cells hold an object or not; `allocate`, `deallocate_block`, `construct_at`, `destroy_at`, the constructors (`make`), `clear`, `reallocate`, `grow`, `emplace_back` (reads its argument after growing), `pop_back`, moves, destructor; programs over many vectors. Allocation does not fail, constructors do not throw, sizes do not overflow, a moved-from element keeps its value until destroyed; the copy assignment, the constructor from a size alone and the iterators are left out. `CVec_spec`: `seq_step`, `seq_run`, `no_own` | invariant `world`: every vector owns a block with its elements and then free cells, no two vectors share a block, every live block has an owner; each operation changes only the block of its vector (`frame`) |
| C84 | `SolMan_model`: the flat array, field views, raw view (left layout), `set_fields`, `get_access` (checked cast of C32), `make_getter`, `access_local`, `access_global`; sizes do not overflow, values of any type. `setFields` with a kernel is C45's. `SolMan_spec`: `changed`, `contents`, `within` | `holds`: cell (field, node) is at field · nodes + node; every change keeps it; local indices by C35 |
| C85 | `RefColl_model`: block addresses, `index`, `grow`, `emplace` (argument read after growing), iterator arithmetic, the loop from begin to end; heap with blocks of others. Moves, destructor and iterators taken before a push are left out. `RefColl_spec`: `pushed` | `inv`: element i is at (first block + i / BS, i mod BS); pushes keep it |
| C86 | `UPtr_model`: pointers on the heap of C83; `make_unique`, `destroy_ptr`, `deref`, moves; programs over many pointers. Construction from a raw pointer is left out. `UPtr_spec`: `moved`, `moves`, `unfreed` | `good`: pointers are distinct and refer to their objects; live blocks = owning pointers + lost objects |
| C87 | `ProbDef_model`: `common/ProblemDefinition.hpp` except `convertToRuntime`; calls of `define` with caught exceptions, `getDomains`, `defineDomain`, `ProblemDef`. `ProbDef_spec`: `accepted`, `requested`, `active_in` | induction over the calls |
| C88 | `intDivRoundUp`; a type is its range of values, division truncates | integer arithmetic |
| C89 | `MGraph_model`: `GraphWrapper` on a heap of blocks; `getElementAdjacent`, copy and move construction and assignment, destruction; programs over many graphs. malloc does not fail. `MGraph_spec`: `offsets`, `vstep`, `run_as` | invariant: pointers without repetition, exactly the live blocks |
| C90 | `WCache_model`: `WeakCache` with objects and their numbers of owners; programs that hold, copy and reset pointers; one thread. `WCache_spec`: `is_last`, `found`, `history_of` | invariant: the number of owners is the number of pointers held |
| C91 | `AOwner_model`: `ArrayOwner` on a heap of blocks that remember how they were allocated; constructors, `copy`, `at`, implicit moves, destructor. Comparison is left out. `AOwner_spec`: `aval` | invariant: each live block has exactly one owner |
| C92 | `TErase_model`: `TypeErasedOverload` with one overload; buffer, heap, special members and invoker apart. Allocation failure is left out, and so is the unused pointer that Move reads from its own buffer. `TErase_spec`: `tvstep` | invariant: each live heap target has exactly one owner, and the buffer of an object without target type holds none |
| C93 | `SmallInt_model`: `integralPower` for types that are not promoted to int, `smallest_integral_t` as a function of its bounds. Not mutation-tested | induction on the exponent; case analysis |
| C51-C53, C55 | numerical helpers over a field | ring/field algebra and induction |
| C54 | row operations on sparse rows | equivalence of equation systems |

## 4. Findings

### 4.1 Proved (a `_refuted` theorem carries the witness)

| Code | What happens | Theorem |
|------|--------------|---------|
| `util/Base64.hpp` 188-189 | the scalar pre-pass does not align the SIMD loads (the text is still right) | `base64_simd_alignment_refuted` |
| `util/DynamicBitset.hpp` `resize` | after shrinking, `count` still counts cut-off flags; growing again brings them back | `bitset_shrink_count_refuted`, `bitset_regrow_refuted` |
| `util/Common.hpp` `exactIntegerCast` | throws for representable negative values when narrowing signed types | `exact_cast_complete_refuted` |
| `util/Algorithm.hpp` `sortedUniqueElements` | copies from the unsorted input, may write too much | `sorted_unique_elements_refuted` |
| `util/StaticVector.hpp` | `resize` and the range constructor ignore the capacity; `erase` returns the wrong iterator; popped elements are destroyed twice | `static_vector_capacity_refuted`, `static_vector_erase_result_refuted`, `static_vector_lifetime_refuted` |
| parallel `transformReduce` | needs commutativity, not only associativity | `parallel_reduce_order_refuted` |
| `util/UniVector.hpp` `transformReduce` | the initial value enters once per vector and once more | `univector_transform_reduce_zero_refuted` |
| `MaxParallelismGuard` | non-nested destruction leaves a stale limit | `parallelism_limit_order_refuted` |
| `util/ScopeGuards.hpp` | move assignment drops ownership; a throwing constructor leaks the initialised library | `scope_guard_move_assign_refuted`, `scope_guard_throwing_constructor_refuted` |
| `comm/ImportExport.hpp` | size checks are not repeated when the number of vectors changes, ignore small strides and wrap for zero vectors | `accepted_buffers_refuted` |
| `comm/ImportExport.hpp` | a rank without neighbours whose empty buffer has a null pointer cannot post | `import_without_neighbours_refuted` |
| `mesh/MeshPartition.hpp` `find(id)` | returns the wrong element or none when ids repeat or are not ascending | `find_by_id_unordered_refuted` |
| `mesh/MeshPartition.hpp` first constructor | assumes gap-free node ids | `mesh_constructor_gap_refuted` |
| mesh serialisation | the dimension of an empty domain is lost | `mesh_serialization_empty_domain_refuted` |
| `mesh/PartitionMesh.hpp` | a boundary inside one domain is accepted | `partition_inner_boundary_refuted` |
| `mesh/PartitionMesh.hpp` | an edge boundary of a face boundary makes partitioning throw | `partition_edge_boundary_refuted` |
| `mesh/PartitionMesh.hpp` | the order of boundary elements depends on the schedule, which breaks `find(id)` | `partition_boundary_order_refuted` |
| `util/SpatialHashTable.hpp` | with rounding, points half a cell apart can land two cells apart when the origin is far away | `spatial_hash_rounding_refuted` |
| `mesh/LocalMeshView.hpp` 220 | the consecutiveness check accepts repeated interior nodes | `local_view_repeated_refuted` |
| `mesh/SplitMesh.hpp` `makeMesh` | if the owned nodes of a half are not contiguous, it owns nodes it does not have and gives up nodes it has | `split_ownership_refuted` |
| `mesh/SplitMesh.hpp` | an edge boundary of a face boundary makes splitting throw | `split_nested_boundary_refuted` |
| `comm/DistributeMesh.hpp` `permuteMesh` | if the rank permutation changes the order of a part's shared nodes, elements are joined to the wrong nodes: the new ids are sorted and then matched by position | `redistribute_refuted` |
| `dofs/NodeToDofMap.hpp` with `bcs/PeriodicBC.hpp` | a component that is active only at a passive periodic node, in an element of a rank that does not own that node, gets no unknown: only the owner knows that the node is passive | `periodic_activity_refuted` |
| `algsys/StaticCondensationManager.hpp` `computeLocalDofInds` | for components not in ascending order (e.g. `{1, 0}`) entries of the element matrix go to the unknowns of other components: positions are counted in ascending component order, the element system has the order given by the user | `condensation_addresses_refuted` |
| `algsys/StaticCondensationManager.hpp` constructor | a component that all boundary nodes of an element have is treated as an interior unknown even if no kernel of the element has it (e.g. an element between two elements of another domain): the interior block is singular and its inverse is used | `condensation_spurious_interior_refuted`, `no_kernel_singular` |
| `algsys/AssembleLocalSystem.hpp` `LocalSystemManager::setZero` | batch sizes are kept: after an element whose kernel throws mid-batch, the next element's system on that thread contains the leftover columns | `element_systems_refuted` |
| `algsys/AssembleLocalSystem.hpp` `AssemblyOptions::order` (32-35) | one degree is subtracted per derivative, but on quads and hexes a derivative lowers the degree in one variable only: products of derivatives are under-integrated (xy on Q1, the square of a derivative: order 0, one point, 0 instead of 4/3); exact on lines (`order_of_line`) | `order_of_quad_refuted` |
| `algsys/EvaluateLocalOperator.hpp` `OperatorEvaluationManager` | the same for the matrix-free path: `m_filled_cols` survives an element that throws, the next result on that thread contains its columns | `operator_evaluations_refuted` |
| `algsys/EvaluateLocalOperator.hpp` `batchSizeHeuristic` | the capacity left by an operand that is larger than the cache wraps around, so the smallest cache is always taken (performance only) | `batch_fits_refuted` |
| `algsys/SumFactorization.hpp` 732 `evalAtHexQPs` | the kernel of a hexahedron gets 0 instead of the third coordinate of the point | `sum_factorisation_refuted` |
| `algsys/SumFactorization.hpp` | a negative Jacobian determinant is not detected: the direct path throws for such an element, this one returns a result | `jacobian_unchecked_refuted` |
| `algsys/ComputeValuesAtNodes.hpp` `averageElementContributions`, constant values | the counts are posted before they are set, so foreign counts arrive as zero: a value v set by two ranks becomes 2v (and a posted send buffer is modified, an MPI error) | `nodal_constants_refuted` |
| `mesh/ReadMesh.hpp` `makeElementFromNodeData` | a clockwise convex quad whose first corner is straight is not flipped (the normal there is zero): negative Jacobian | `gmsh_straight_corner_refuted` |
| `mesh/ReadMesh.hpp` `parse_nodes` | an empty node block breaks the reading of the file: constructing the istream_iterator takes one number even if none is to be copied | `gmsh_empty_block_refuted` |
| `mesh/ReadMesh.hpp` with `MeshPartition` constructor | a node of the file that no element uses leaves a gap in the ids; the mesh then owns an interval that misses nodes of its elements | `gmsh_unused_node_refuted` |
| `post/NativeIO.hpp` `LoadedResults` | the length of the file is not checked against its header: a file without its last byte is accepted and read past the end | `results_truncated_refuted` |
| `post/NativeIO.hpp` `loadUnifiedMesh` | elements are appended part by part, so their ids no longer ascend and `find(id)` (C27) returns the wrong element | `saved_mesh_unified_order_refuted` |
| `post/VtkExport.hpp` `openFileForExport` | an existing file is not truncated: a shorter export leaves the end of the old file after `</VTKFile>` | `vtu_file_truncated_refuted` |
| `post/VtkExport.hpp` `appendPvtuPointDataDef` | with two vectors before the first scalar the .pvtu file announces the second vector as `Scalars`, unlike the .vtu files | `pvtu_attributes_refuted` |
| `mapping/BoundaryIntegralJacobian.hpp` | returns 0 for lines, although the weight of the single boundary point is 1: boundary terms at the ends of one-dimensional domains vanish | `line_boundary_jacobian_refuted` |
| `comm/` `makeTag` | ids wrap modulo 256 | example `tags_collide` |
| `bcs/LocalDirichletBC.hpp` 111 | passes the number of owned dofs where the number of owned nodes is expected: a normalised component that lives only on the last nodes is not found and the constructor throws | `normalization_refuted` |
| `algsys/MatrixFreeSystem.hpp` `computeDiagAndRhs` | adds the diagonals of the element matrices; when two nodes of one element carry the same unknown (a periodic direction one element wide) the off-diagonal entries belong to the diagonal too and are missing from it, so Jacobi-type preconditioners use a wrong diagonal | `diagonal_refuted` |
| `mesh/ConvertMeshToOrder.hpp` | whether a mesh with an edge in two boundary domains can be converted depends on the domain ids: if both come before the domain of the quads, the second edge gets nodes of its own and the reconstruction of boundaries throws | `overlapping_boundaries_refuted` |
| `post/Integral.hpp` `computeIntegral` | reduces `n_equations` numbers of a result that has `n_equations` x `n_rhs`: with several right-hand sides the other columns of the integral are 0 | `integral_columns_refuted` |
| `solve/NativePreconditioners.hpp` `apply` | more than one sweep does not do more: each repeats `Y := alpha M X + beta Y`, so with beta = 0 sweeps after the first change nothing and with beta != 0 the result is not the operator's; zero sweeps leave Y as it was, a negative number is undefined | `sweeps_refuted`, `sweeps_computed` |
| `solve/BelosSolvers.hpp`, `solve/Amesos2Solvers.hpp` `solve` | the first call's A, b and x are kept: a solver used with another system solves the first one again and leaves the second's solution untouched | `other_system_refuted` |
| `solve/BelosSolvers.hpp` `solve` | the preconditioner is made once; after the operator has been assembled again the old one is used | `stale_preconditioner_refuted` |
| `solve/BelosSolvers.hpp` `init`, `solve/Amesos2Solvers.hpp` | `m_solver` is set before the checks: after a failed set-up a second call goes on without a problem, or with shapes that were rejected | `failed_setup_refuted` |
| `solve/PreconditionerInterface.hpp` `initPreconditioner` | a preconditioner for matrices with an operator that is no matrix (Ifpack2 with `MatrixFreeSystem`) reaches `std::unreachable` instead of an error | `preconditioner_made` |
| `algsys/AssembledSystem.hpp` `assembleProblem` with `dofs/` `ProblemDefinition` | two definitions on the same domain give no place to entries that couple their components: a kernel with components of both loses them silently (`sumIntoLocalValues` ignores absent columns) | `assembly_coupling_refuted` |
| `algsys/AssembledSystem.hpp` `assembleProblem` | a kernel with a component that the problem does not have on the domain writes out of bounds; the asserts check only the number of components | `assembly_missing_refuted` |
| `bcs/GetDirichletDofs.hpp` | a Dirichlet condition on a component that is absent at a node of the boundary, and a normalised component that exists nowhere, use the invalid number as an index | `dirichlet_dofs_refuted` |
| `mesh/MeshUtils.hpp` 117 `makeBoundaryNodeCoordsMap` | `coords != nan_point` is true for every node, as NaN differs from itself: nodes that are on no boundary enter the map with NaN coordinates, disturb the bounding box in the order of a hash map, and `lround(NaN)`, the least integer on x86-64, overflows when the neighbouring cells are visited: `merge` with a second mesh that has an inner node is undefined | `interior_undefined_refuted`, `merge_undefined_example` |
| `mesh/MeshUtils.hpp` `matchExistingNodes` | nodes nearer than the tolerance 1e-12 are missed when the cells are smaller, as across a planar mesh | `match_near_refuted` |
| `mesh/primitives/CylinderInChannel2D.hpp` | domain id 1 throws although all ids are distinct, as 1 to 4 are used inside for the sides of the parts | `cylinder_ids_refuted` |
| `mesh/primitives/CylinderInChannel2D.hpp` `correct` | accepts an inner radius of 0: quadrilaterals with two equal vertices | `cylinder_radius_refuted` |
| `util/RobinHoodHashTables.hpp` | 128 keys with the same hash make the table throw `overflow_error`, whatever the number of free slots | `robin_hood_total_refuted` |
| `util/ConstexprVector.hpp` | Pushing an own element of a full vector reads the block that `grow` has freed | `vector_push_own_refuted` |
| `post/SolutionManager.hpp` `makeFieldValueGetter` of a range | copies indices to 32 bits unchecked: index 2^32 reads field 0 | `solution_getter_refuted` |
| `post/SolutionManager.hpp` `getFieldAccess` | does not check that the field exists: reads out of bounds | `solution_field_refuted` |
| `util/ConstexprRefStableCollection.hpp` `Iterator` | postfix `++` and `--` are const: they return the moved iterator and leave the iterator where it is | `collection_postfix_refuted` |
| `util/ConstexprRefStableCollection.hpp` `ConstexprUniquePtr` | move assignment overwrites the pointer of its target and leaks the object | `unique_ptr_frees_refuted` |
| `math/IntegerMath.hpp` `intDivRoundUp` | for signed types with a negative numerator the quotient is not rounded up (-3 by 2 gives 0); the one use is unsigned | `int_div_round_up_refuted` |
| `util/WeakCache.hpp` `contains` | stays true when the object is gone and `get` gives null; entries are never removed | `weak_cache_contains_refuted` |
| `util/ArrayOwner.hpp` `at` | a moved-from array keeps its size: `at` passes its check and uses a null pointer | `array_owner_moved_refuted` |
| `util/ArrayOwner.hpp` constructors with alignment | memory from the aligned `new[]` is released by the plain `delete[]` (the constructors are not used in the library) | `array_owner_aligned_refuted` |
| `util/TypeErasedOverload.hpp` `operator bool` | stays true for an object whose heap target was moved away; a call then uses a null pointer | `type_erased_bool_refuted` |

### 4.2 Noticed while reading (no theorem)

* `Polynomial` `operator+` and `operator*` cannot be instantiated.
* `StaticVector::erase` of an empty range before the end violates the precondition of `std::move`.
* `makeCubeMesh` with two empty coordinate arrays reads out of bounds; the line and square generators throw `length_error`.
* `WeakCache::contains` is true for an expired entry.
* `ConstexprVector` copy assignment calls `create`, which does not exist; `convertToRuntime` (`ProblemDefinition.hpp`) uses `std::bitset` as the key of a `std::map` and passes it as a list of indices, neither of which should compile (read only, not tried); `ConstIterator` of `ConstexprRefStableCollection` is the iterator of a collection of another element type and of the default block size, so that `begin() const` should not compile (read only, not tried).
* `setOwned`/`setShared` change the stride even when they throw.
* `SegmentedOwnership` allows repeated shared ids; `getLocalIndex` of an unknown id returns a position.
* `makeNodeSpacemap` starts its maximum from `numeric_limits::min()`, the smallest positive number.
* `merge` throws when an id is a boundary of one mesh and an empty inner domain of the other.
* `DirichletBCAlgebraic`: a constrained row without stored diagonal makes the later write go out of bounds (`dirichlet_no_diagonal_example`).
* A side that lies in two boundaries is reported only for the boundary with the greater id (`boundary_of` in C63).
* `getMaxDim` is 255 when a domain is empty, so `computeNodeOrder` then groups nothing.
* `reorderByAdjacency` marks finished elements by the greatest 32-bit number, which an element of that connectedness would collide with.
* `PeriodicBC`: the check for unmatched nodes sees only nodes that occur in a matched pair, so an unmatched node is never reported.
* `NodeMatcher`: a boundary on a plane gives a zero extent, hence `0/0` passed to `lround`.
* `Deserializer` ignores trailing bytes.
* `StaticCondensationManager` uses the transposed upper block as lower block, so it needs symmetric element matrices; `LocalSystemManager` produces such.
* `save` of results: every rank computes offsets from its own comment, so comments of different lengths corrupt the file.
* `computeBoundaryIntegralJacobian` is zero for line elements; the normal of a line assumes that the line points in the positive direction.
* `makeRotationMatrix2D` turns in the opposite sense to the axis rotations of `makeRotationMatrix3D`.
* `uncondenseNodes` leaves the interior values of nodes in no element uninitialised.
* `ProblemDefinition` is converted to a `std::map` keyed by `std::bitset`, which has no ordering.
* `MatrixFreeSystem::defineOperator` does not require that the kernel's number of right-hand sides is the system's, unlike `assembleProblem`.
* `getPointMatcher` uses an absolute tolerance of 1e-12: with coordinates of 10^4 or more rounding alone exceeds it; a node without a partner is then left unnumbered, and its index used (`updateMatchMask` in `mesh/ElementIntersecting.hpp`).
* `computeMeshDual` and `assertUnpartitionedMesh` take the last element of a possibly empty range.
* `readMesh` counts entity tags as physical domains (unused) and reads negative physical tags into an unsigned number.
* The wrappers of residual kernels (`common/KernelInterface.hpp`) do not initialise the result they pass to the kernel; a kernel that sets only some entries, as assembly kernels may, integrates garbage.
* Integrals do not check the sign of the Jacobian, unlike assembly; with mirrored elements the squared norm can be negative and the norm NaN.
* `computeIntegral` silently gives 0 for domains of another dimension than the kernel's and for boundary ids without boundary; an id given twice counts twice.
* The default `FieldAccess{}` of `computeIntegral` has no ownership object; a kernel with fields and no access given dereferences a null pointer.
* `AssemblyOptions::order` and `doubleQuadratureOrder` compute in 8-bit numbers; the model does not bound them.
* `AssembledSystem::setDirichletBCValues` after `endAssembly` has no effect on the closed system; the values enter at the next `endAssembly`.
* `ConstexprRefStableCollection`: the postfix `++` and `--` of its iterators return the neighbouring position and do not move the iterator.
* `loadUnifiedMesh` takes the boundary ids only from the first part that has any.
* `MatrixFreeSystem::initKernelMaps` clears only the kernels of domains that this part has.
* Cylinder meshes: inner patches keep the default ids 1 to 4, so a user's domain id in that range collides and the merge throws; `r_inner > 0` is not required.
* Hexahedra of order 40 or more have more nodes than `el_locind_t` can count.

## 5. Axioms

No axiom is added. The theorems about integers, lists, meshes and concurrency print
"Closed under the global context". The theorems over the real numbers (`Poly_props.v`,
`Basis_props.v`, `Gauss_props.v`, `Geom_props.v`) rest on the axioms of the standard library's reals, as printed below each theorem:

* `ClassicalDedekindReals.sig_forall_dec`
* `ClassicalDedekindReals.sig_not_dec`
* `FunctionalExtensionality.functional_extensionality_dep`
* `Classical_Prop.classic` (C69 and C70 only: used by the standard library's mean value
  theorem and fundamental theorem of calculus)

## 6. Not modelled

* Rounding, overflow and NaN of floating point numbers (except the rounding bound of C33).
* MPI, METIS, TBB, Tpetra/Kokkos, Eigen, hwloc: only their documented effect, as described in section 1.
* Memory allocation failure, the C++ type system (templates, concepts), compile-time evaluation limits.
* Weak-memory effects beyond the interleaving of atomic steps.
* The solvers of Trilinos (also the eigenvalue solver and root finder behind the quadratures and Lobatto nodes, of which only the contract is stated), character-level parsing of Gmsh text, the XML text of VTK files (the arrays, offsets and layout are modelled) and the .pvtu file except its attributes, profiling.
* MPI-IO: every write is atomic and all writes are complete when the file is opened again.
