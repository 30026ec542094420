{"claims": [
 {"property": "C01", "status": "proved", "theorems": ["base64_encode_is_rfc4648"], "note": ""},
 {"property": "C02", "status": "proved", "theorems": ["base64_roundtrip", "base64_injective"], "note": ""},
 {"property": "C03", "status": "proved", "theorems": ["bitset_refines_bool_list"], "note": ""},
 {"property": "C04", "status": "proved", "theorems": ["bitset_subview_count"], "note": ""},
 {"property": "C05", "status": "proved", "theorems": ["bitset_atomic_linearizable", "bitset_atomic_sets_never_lost", "bitset_atomic_flips_never_lost"], "note": "memory is sequentially consistent in the model; atomic read-modify-write is one step"},
 {"property": "C06", "status": "partial", "theorems": ["bitset_resize_partial", "bitset_shrink_count_refuted", "bitset_regrow_refuted"], "note": "the full claim is false of the code; refuted by witnesses, proved when no true flag is cut off"},
 {"property": "C07", "status": "proved", "theorems": ["ownership_throws_iff_overlap", "ownership_index_bijection"], "note": ""},
 {"property": "C08", "status": "proved", "theorems": ["owner_lookup_correct"], "note": ""},
 {"property": "C09", "status": "proved", "theorems": ["neighbour_exchange_correct"], "note": "MPI collectives and probes are modelled by their documented effect"},
 {"property": "C10", "status": "proved", "theorems": ["import_correct"], "note": "Whole protocol: exchange tables, packing in any thread order, any message timing; no deadlock, no overrun."},
 {"property": "C11", "status": "proved", "theorems": ["export_correct"], "note": "For any combine operation applied indivisibly; contributions combined in some order."},
 {"property": "C12", "status": "proved", "theorems": ["try_receive_at_most_once", "try_receive_reports"], "note": "Interleaving semantics (sequential consistency); the progress part assumes try_lock does not fail spuriously."},
 {"property": "C13", "status": "proved", "theorems": ["tags_distinct"], "note": "Collisions exactly when creation numbers agree modulo 256."},
 {"property": "C14", "status": "partial", "theorems": ["accepted_buffers_partial", "accepted_buffers_refuted", "import_without_neighbours_refuted"], "note": "Full claim is false: raising the number of vectors after setting buffers, a stride below the column length, and zero vectors (wrap-around) all lead out of bounds; proved for strides with room, no overflow and no increase of the number of vectors."},
 {"property": "C15", "status": "proved", "theorems": ["gather_delivers", "gather_progress", "gather_terminates"], "note": "MPI_Ibcast by its documented semantics, both completion variants (local or synchronising)."},
 {"property": "C16", "status": "proved", "theorems": ["serialization_roundtrip", "serialization_truncated", "deserialization_total", "serialization_prefix_free"], "note": "trailing bytes after the value are ignored by deserialize"},
 {"property": "C17", "status": "proved", "theorems": ["mesh_serialization_roundtrip", "mesh_serialization_truncated", "mesh_serialization_empty_domain_refuted"], "note": "An empty domain that has a dimension loses it (refuted theorem); the property excludes empty domains."},
 {"property": "C18", "status": "proved", "theorems": ["partition_is_partition", "partition_obeys_metis"], "note": "For meshes whose boundary elements each have one parent domain (otherwise see C21)."},
 {"property": "C19", "status": "proved", "theorems": ["partition_is_partition", "partition_single_owner"], "note": "Owned ranges of parts that own nothing start at 0."},
 {"property": "C20", "status": "proved", "theorems": ["condensation_lossless", "weights_compacted", "metis_table", "uncondensing"], "note": ""},
 {"property": "C21", "status": "partial", "theorems": ["partition_is_partition", "partition_rejects_interface_partial", "partition_rejects_orphan_partial", "partition_inner_boundary_refuted", "partition_edge_boundary_refuted", "partition_boundary_order_refuted"], "note": "The first half holds. The second is false as stated: boundary elements inside one domain are accepted; only elements with parents in several domains, or in none, are rejected, and only if the counts do not cancel."},
 {"property": "C22", "status": "proved", "theorems": ["merge_valid"], "note": "All meshes, matches and schedules. The match map (from node coordinates) is an argument; element order 1; domains with the same id must agree in dimension and in being boundaries (otherwise merge throws or mixes them)."},
 {"property": "C23", "status": "proved", "theorems": ["extrude_valid", "extrude_shared_nodes", "extrude_conforming", "extrude_throws"], "note": "All plane meshes of lines and quadrilaterals with nodes 0..N-1, all lists of at least two heights. Coordinates of arbitrary type. Assumes fewer ids than 2^64."},
 {"property": "C24", "status": "proved", "theorems": ["square_mesh_valid", "square_mesh_repeated", "square_mesh_too_small", "line_mesh_valid"], "note": "Any coordinate type and any number of grid lines. square_mesh_valid: all ids distinct; square_mesh_repeated: boundary ids may repeat, only the domain id must differ from them. With fewer than two lines in a direction the function throws."},
 {"property": "C25", "status": "proved", "theorems": ["cube_mesh_valid", "cube_mesh_too_small"], "note": "Any coordinate type and any number (at least two) of grid lines in each direction; one line throws; empty arrays are outside the model (size wrap-around)."},
 {"property": "C26", "status": "proved", "theorems": ["side_tables_list_side_nodes", "boundary_inds_are_union", "internal_inds_are_complement", "node_locations_follow_grid"], "note": "under the documented assumption that el_locind_t can hold the number of nodes per element"},
 {"property": "C27", "status": "proved", "theorems": ["find_by_id", "find_by_id_unique", "find_by_id_unordered_refuted"], "note": "Ids strictly ascending per vector; counterexamples for weaker assumptions."},
 {"property": "C28", "status": "proved", "theorems": ["dfs_visits_reachable_once", "components_are_connectivity_classes", "components_of_edge_list"], "note": "For all well-formed (and, for components, symmetric) graphs."},
 {"property": "C29", "status": "proved", "theorems": ["crs_graph_has_the_listed_edges", "crs_graph_of_no_edges", "components_of_edge_list"], "note": "Unsigned vertices; hash-table iteration order arbitrary."},
 {"property": "C30", "status": "proved", "theorems": ["sorting_permutation_sorts", "matching_permutation_finds_first", "sort_remove_dup_distinct", "unique_copy_distinct", "sorted_unique_elements_refuted", "sorted_unique_elements_partial"], "note": "std::sort by contract. The related helper sortedUniqueElements is wrong for unsorted arrays (refuted/partial)."},
 {"property": "C31", "status": "proved", "theorems": ["index_map_inverts", "index_map_size_distinct", "invert_map_inverts"], "note": ""},
 {"property": "C32", "status": "partial", "theorems": ["exact_cast_sound", "exact_cast_no_ub", "exact_cast_complete_refuted", "exact_cast_complete_partial"], "note": "Returned values are always right, but representable negative values are rejected when the target maximum is smaller (refuted)."},
 {"property": "C33", "status": "proved", "theorems": ["spatial_hash_close", "spatial_hash_close_partial", "spatial_hash_rounding_refuted"], "note": "Exact arithmetic: full claim. With rounded quotients: full claim with the cell size shrunk by twice the error; the unshrunk claim is refuted."},
 {"property": "C34", "status": "proved", "theorems": ["parallel_for_once", "parallel_transform_maps", "parallel_reduce_folds", "parallel_reduce_order_refuted", "univector_transform_reduce"], "note": "std::transform_reduce may permute, so commutativity is needed: parallel_reduce_order_refuted"},
 {"property": "C35", "status": "proved", "theorems": ["local_view_exact", "local_view_repeated_refuted"], "note": "For elements with distinct nodes; without distinctness refuted."},
 {"property": "C36", "status": "proved", "theorems": ["reorder_is_permutation", "node_rows_are_incidence"], "note": "For connectedness sums below the 32-bit maximum."},
 {"property": "C37", "status": "partial", "theorems": ["split_distributes", "split_boundary_follows", "split_owns_its_nodes_partial", "split_ownership_refuted", "split_nested_boundary_refuted"], "note": "Every element goes to exactly one half, by the predicate; boundary elements follow the element their view shows. A half owns exactly the owned nodes it has if these are contiguous; otherwise false (split_ownership_refuted). Throws for boundaries of boundaries (split_nested_boundary_refuted)."},
 {"property": "C38", "status": "partial", "theorems": ["invert_permutation", "redistribute_keeps_mesh_partial", "redistribute_refuted", "old_node_ids"], "note": "Proved for permutations that keep the order of each part's shared nodes; refuted otherwise (the sorted new ids are matched by position with the old ones). The choice of the permutation (MPI distributed graph) is an input; serialisation is C17, import is C10."},
 {"property": "C39", "status": "proved", "theorems": ["dofs_numbered_without_gaps", "periodic_dofs_numbered", "local_dof_map_correct"], "note": "For any numbers of ranks, parts, problem definitions, visiting orders and arrival orders: the numbering is defined exactly at active pairs, injective and ordered, onto [0,T), owned ranges consecutive in rank order, all ranks agree; process-local map correct."},
 {"property": "C40", "status": "proved", "theorems": ["periodic_info_correct", "periodic_nodes_share", "periodic_activity_partial", "periodic_activity_refuted"], "note": "Geometric matching is an argument; matched pairs are arbitrary pairs of mesh nodes. Sharing of numbers is proved in full, including components without condition; that an active component has an unknown fails when it is active only at a passive node on a rank that does not own it (refuted)."},
 {"property": "C41", "status": "proved", "theorems": ["sparsity_exact", "sparsity_schedule_independent", "sparsity_of_mesh"], "note": "All ranks together: any order of atomic additions and subtractions, copies, row sorting, message arrival and received rows, any content of uninitialised memory. Tpetra is modelled by the column map, row sizes and indices passed to it; index overflow is not modelled. A shared (not owned) row holds what its own rank couples."},
 {"property": "C42", "status": "partial", "theorems": ["condensation_addresses_partial", "condensation_sizes", "condensation_addresses_refuted"], "note": "Proved for components in ascending order, any order of elements, any activity pattern; false otherwise (condensation_addresses_refuted)."},
 {"property": "C43", "status": "proved", "theorems": ["condensation_equivalent"], "note": "Over any commutative ring, for all elements, kernel calls in any order and any number of right-hand sides. Interior unknowns are those the code uses; no_kernel_singular shows when their block is singular."},
 {"property": "C44", "status": "partial", "theorems": ["element_systems_partial", "element_systems_real_partial", "element_systems_refuted"], "note": "Elements without an exception: weighted sums for all updates, weights, batch sizes and buffer contents, over any ring with the root, and over R. An element that throws in the middle of a batch spoils the next one on the same thread (refuted)."},
 {"property": "C45", "status": "partial", "theorems": ["nodal_values_mean", "nodal_fields_mean", "mean_of_constant", "nodal_constants_refuted", "nodal_constants_partial", "export_exported", "import_imported"], "note": "Kernel overload and SolutionManager: mean of all contributions or old value, for fewer than 2^16 contributions per index (uint16 counters). Constant overload on matrix-free systems: refuted (value doubled at nodes set on two ranks); holds where only the owner sets the node."},
 {"property": "C46", "status": "partial", "theorems": ["static_vector_is_a_list", "static_vector_push_full", "static_vector_from_range", "true_inds_list_set_positions", "static_vector_capacity_refuted", "static_vector_erase_result_refuted", "static_vector_lifetime_refuted"], "note": "proved for trivially destructible elements (the only use in the library); false for others (lifetime_refuted); erase of an empty range before the end is excluded"},
 {"property": "C47", "status": "proved", "theorems": ["univector_size", "univector_visit", "univector_at", "univector_find", "univector_transform_reduce", "univector_transform_reduce_zero_refuted"], "note": ""},
 {"property": "C48", "status": "proved", "theorems": ["parallelism_limit_is_least", "parallelism_limit_restored", "parallelism_limit_order_refuted"], "note": "moves of MaxParallelismGuard are not modelled"},
 {"property": "C49", "status": "partial", "theorems": ["scope_guard_finalises_once_partial", "scope_guard_move_assign_refuted", "scope_guard_throwing_constructor_refuted"], "note": "false for move assignment into an owning guard and for a constructor that throws after initialising MPI"},
 {"property": "C50", "status": "proved", "theorems": ["gmsh_element", "gmsh_quad_normal", "gmsh_quad_jacobian", "gmsh_straight_corner_refuted"], "note": "Exact arithmetic. The refuted theorem concerns a stronger reading (positive Jacobian for all convex quads)."},
 {"property": "C51", "status": "proved", "theorems": ["polynomial_evaluate", "polynomial_derivative", "polynomial_integral", "polynomial_product"], "note": "Over the reals. operator* as written cannot be instantiated (it iterates over the polynomial objects); modelled for their coefficients."},
 {"property": "C52", "status": "proved", "theorems": ["lagrange_interpolates"], "note": "Over the reals."},
 {"property": "C53", "status": "proved", "theorems": ["legendre_polynomial", "lobatto_polynomial"], "note": "Over the reals; all orders."},
 {"property": "C54", "status": "proved", "theorems": ["dirichlet_equivalent", "dirichlet_vector_count"], "note": "Assembled systems (DirichletBCAlgebraic), any number of ranks, any commutative ring instead of floating point; Tpetra by its documented effect. A constrained row without a diagonal entry is out of bounds (dirichlet_no_diagonal_example)."},
 {"property": "C55", "status": "proved", "theorems": ["grids_too_few", "linspace_grid", "geomspace_grid", "progression_grid", "progression_bad_ratio"], "note": "Over the reals; geomspace for positive end points, the progression for positive ratios (it throws otherwise)."},
 {"property": "C56", "status": "proved", "theorems": ["boundary_views_match_sides"], "note": ""},
 {"property": "C57", "status": "proved", "theorems": ["partition_constructor", "mesh_constructor", "mesh_constructor_gap_refuted", "copy_is_equal"], "note": "The range-less constructor needs node ids without gaps (counterexample given)."},
 {"property": "C58", "status": "proved", "theorems": ["reindex_renumbers"], "note": ""},
 {"property": "C59", "status": "proved", "theorems": ["visit_every_element_once", "mesh_reduction_folds"], "note": ""},
 {"property": "C60", "status": "proved", "theorems": ["push_to_domain"], "note": ""},
 {"property": "C61", "status": "proved", "theorems": ["companion_eigenvalues"], "note": "Over the reals; real eigenvalues. The eigenvalue solver (Eigen) is external."},
 {"property": "C62", "status": "proved", "theorems": ["node_order_groups_interiors"], "note": ""},
 {"property": "C63", "status": "proved", "theorems": ["local_mesh_view_complete"], "note": ""},
 {"property": "C64", "status": "partial", "theorems": ["gmsh_read_partial", "gmsh_owned_partial", "gmsh_empty_block_refuted", "gmsh_unused_node_refuted"], "note": "Refuted for files with empty node blocks and (ownership) for nodes without elements; proved for all other files. Text level (number formats, substring search for section names) not modelled."},
 {"property": "C65", "status": "proved", "theorems": ["saved_results_read_back", "load_results_fills_columns", "results_survive_restart", "direct_load_node_numbers", "results_truncated_refuted"], "note": "For files written by save. A shortened results file is accepted and read out of bounds: results_truncated_refuted. The old-node map of a redistributed mesh is an argument."},
 {"property": "C66", "status": "proved", "theorems": ["saved_mesh_direct", "saved_mesh_wrong_ranks", "saved_mesh_unified", "saved_mesh_truncated", "saved_mesh_unified_order_refuted"], "note": "Element order within a domain is not preserved by the unified load: saved_mesh_unified_order_refuted."},
 {"property": "C67", "status": "proved", "theorems": ["basis_at_nodes", "value_at_nodes", "basis_reproduces_polynomials", "basis_derivatives", "basis_tables"], "note": "Exact arithmetic; the abscissae are any distinct numbers, see C70."},
 {"property": "C68", "status": "proved", "theorems": ["mapping_at_vertices", "jacobian_is_derivative", "physical_gradients", "physical_gradients_affine", "side_points", "side_nodes", "boundary_geometry", "line_normal", "line_boundary_jacobian_refuted"], "note": "Exact arithmetic. The boundary Jacobian of lines is always 0 (line_boundary_jacobian_refuted). Example: trapezium_example."},
 {"property": "C69", "status": "proved", "theorems": ["integral_is_unique", "integral_is_riemann", "quadrature_exact", "quadrature_points", "quadrature_sum"], "note": "Exact arithmetic. The eigenvalue solver is any one that returns ascending eigenvalues and orthonormal eigenvectors. Example: quadrature_example."},
 {"property": "C70", "status": "proved", "theorems": ["lobatto_abscissae"], "note": "Exact arithmetic. Eigen's eigenvalue solver is assumed to return all zeros of the polynomial."},
 {"property": "C71", "status": "partial", "theorems": ["vtk_subtopology", "vtk_cells_tile", "vtk_topology", "vtk_field", "vtu_file", "vtu_attributes", "pvtu_attributes_partial", "vtu_file_truncated_refuted", "pvtu_attributes_refuted"], "note": "The .vtu file is proved completely except that an old longer file is not truncated (vtu_file_truncated_refuted) ; the .pvtu attributes hold only if no two vectors precede the first scalar (pvtu_attributes_refuted). XML text is an arbitrary function of the description; the rest of the .pvtu file is not modelled."},
 {"property": "C72", "status": "partial", "theorems": ["operator_evaluations_partial", "operator_matches_system_partial", "operator_precompute", "operator_evaluations_refuted", "batch_positive", "batch_fits_partial", "batch_fits_refuted"], "note": "Evaluation is proved for all elements that do not throw; refuted for the element after one that throws mid-batch. The cache claim holds if the operand fits the cache and is refuted otherwise."},
 {"property": "C73", "status": "partial", "theorems": ["sum_factorisation_flat", "sum_factorisation_partial", "sum_factorisation_refuted", "jacobian_unchecked_refuted", "matrices_symmetric"], "note": "Equality with the direct evaluation is proved unconditionally for the kernel with the third coordinate set to 0, hence for kernels whose operators do not depend on it and for elements in the plane z = 0; refuted for other kernels on hexahedra, and for elements with negative Jacobian, where only the direct path throws."},
 {"property": "C74", "status": "partial", "theorems": ["local_dirichlet", "local_dirichlet_partial", "bc_definition", "normalization_refuted"], "note": "Full without normalisation. With normalisation: assumes that each normalised component is found among the first nodes of some rank's map (as many as that rank has owned unknowns); without it the constructor may throw (refuted). The contracts of export and import are those proved in C10."},
 {"property": "C75", "status": "partial", "theorems": ["operator_applied", "operator_total", "diagonal_and_rhs", "dirichlet_system", "diagonal_partial", "diagonal_refuted", "direct_jobs", "sumfact_jobs_partial", "dirichlet_unknowns_known"], "note": "The operator, its Dirichlet treatment, right-hand side and totality are proved in full. The precomputed diagonal is that of the operator only if no element carries an unknown twice (diagonal_refuted); sum-factorised jobs under the hypotheses of C73."},
 {"property": "C76", "status": "proved", "theorems": ["mesh_converted", "mesh_converted_lobatto", "lobatto_symmetric", "converted_positions", "overlapping_boundaries_refuted", "unsuitable_rejected"], "note": "For conforming meshes whose distinct points are at least the tolerance apart (resolved); the abscissae are symmetric by C70. METIS is relied on for: elements with two common nodes are neighbours. Meshes whose boundary domains overlap are not conforming; for them the outcome depends on the domain ids (refuted)."},
 {"property": "C77", "status": "partial", "theorems": ["integral_distributed_partial", "integral_boundary_partial", "integral_any_partition", "boundary_any_partition", "norm_l2", "norm_l2_boundary", "integral_exists", "integral_columns_refuted", "order_of_line", "order_of_quad_refuted"], "note": "Proved for kernels with one right-hand side; false for several (integral_columns_refuted): only the first column is reduced. The automatic quadrature order is exact on lines (order_of_line) and too low on quads (order_of_quad_refuted). Boundaries of lines excluded (their Jacobian is 0, C68). Exact arithmetic."},
 {"property": "C78", "status": "proved", "theorems": ["richardson_applied", "jacobi_applied", "sweeps_computed", "sweeps_refuted", "jacobi_diagonal", "native_symmetric", "preconditioner_made", "solver_reused", "solver_first", "direct_reused", "other_system_refuted", "stale_preconditioner_refuted", "failed_setup_refuted"], "note": "Belos, Amesos2 and Ifpack2 are parameters. The claims about several sweeps, other objects, renewed preconditioners and failed set-ups are false of the code and refuted."},
 {"property": "C79", "status": "partial", "theorems": ["assembly_world", "assembly_exact_partial", "system_solutions", "dirichlet_dofs_exact_partial", "assembly_dirichlet_partial", "stages_checked", "values_need_definition", "assembly_coupling_refuted", "assembly_missing_refuted", "dirichlet_dofs_refuted"], "note": "Proved for kernels whose components all belong to one definition on the domain (covered), and conditions on components that exist (def_ok); without that the claim is false (refuted theorems). No static condensation (C42, C43)."},
 {"property": "C80", "status": "partial", "theorems": ["match_existing_partial", "merge_by_position_partial", "match_without_interior", "interior_undefined_refuted", "match_near_refuted", "square_mesh_whole", "deform_keeps"], "note": "Proved under the condition that lround of NaN is not extreme, or that all nodes are on boundaries (then unconditionally for the match). Without it undefined: interior_undefined_refuted. Missing: rounding of coordinates and of the cell computation; data races of equal stores are benign and not modelled. Examples fitting_example, merge_example, merge_undefined_example."},
 {"property": "C81", "status": "partial", "theorems": ["cylinder_parts_made", "cylinder_sides_fit", "cylinder_walls", "cylinder_cells", "cylinder_mesh_partial", "cylinder_ids_refuted", "cylinder_radius_refuted"], "note": "Refuted as stated by correct() alone: domain id 1 throws, and an inner radius of 0 gives degenerate cells. Missing: that the edges between the parts are removed and the number of nodes after merging; the matching is only assumed to pair nodes at equal positions (see C80, where it is undefined with interior nodes); rounding. The halves of the ring are merged with the other parts in one fold. Example cylinder_example."},
 {"property": "C82", "status": "proved", "theorems": ["robin_hood_is_map", "robin_hood_iteration", "robin_hood_few_keys", "robin_hood_same_hash", "robin_hood_total_refuted"], "note": "Every history of changes ends in a throw or in a table that is the map; iteration visits each key once; no throw with at most 125 keys; at most 127 keys of equal hash, 128 throw (refuted that it never throws). Abstract mixed hash, no overflow of sizes; copies and moves of tables left out."},
 {"property": "C83", "status": "partial", "theorems": ["vector_programs", "vector_sequence_partial", "vector_push_own_room", "vector_push_own_refuted"], "note": "Every program either gives the sequences and frees every block once, or pushes an own element of a full vector, which is undefined (refuted). Copy assignment does not compile and is left out, as are allocation failures and throwing constructors."},
 {"property": "C84", "status": "proved", "theorems": ["solution_contents", "solution_access", "solution_access_exact", "solution_getter_refuted", "solution_field_refuted"], "note": "Contents after all changes within range, accesses by local and global ids, exact indices. Refuted: the getter for ranges wraps indices, fields that do not exist are not rejected. Overflow of sizes not modelled; setFields with a kernel is C45."},
 {"property": "C85", "status": "proved", "theorems": ["collection_stable", "collection_reference", "collection_postfix_refuted"], "note": "Sequence, references, iteration for all programs of pushes; refuted that the postfix operators of the iterator behave as required. Moves, destructor and the const iterators (which do not fit the type of the blocks) are left out."},
 {"property": "C86", "status": "partial", "theorems": ["unique_ptr_programs", "unique_ptr_frees_partial", "unique_ptr_frees_refuted"], "note": "No double free, no use after free, right values for all programs, and the exact number of leaked objects; refuted that everything is freed (move assignment to an owning pointer). Pointers made from raw pointers are left out."},
 {"property": "C87", "status": "proved", "theorems": ["define_exact", "problem_definition_exact", "define_domain_exact", "problem_def_exact"], "note": "All call sequences. convertToRuntime is not modelled."},
 {"property": "C88", "status": "partial", "theorems": ["int_div_round_up_partial", "int_div_round_up_negative", "int_div_round_up_refuted"], "note": "Proved for non-negative numerators and positive denominators; for negative numerators of signed types the claim is refuted and the exact result is proved (one too many unless the division is exact)."},
 {"property": "C89", "status": "proved", "theorems": ["graph_programs", "graph_arrays", "graph_copy_moved_undefined"], "note": "All programs that copy no moved-from object; copying one is undefined (graph_copy_moved_undefined). handleMetisErrorCode is not modelled."},
 {"property": "C90", "status": "proved", "theorems": ["weak_cache_programs", "weak_cache_pointers", "weak_cache_contains_refuted"], "note": "All programs on one thread. contains does not imply that get gives an object (refuted)."},
 {"property": "C91", "status": "partial", "theorems": ["array_owner_programs_partial", "array_owner_moved_refuted", "array_owner_aligned_refuted"], "note": "Proved for programs that use no moved-from array (other than assigning to it) and no aligned allocation; both are refuted. Comparison is left out."},
 {"property": "C92", "status": "proved", "theorems": ["type_erased_programs", "type_erased_bool_refuted"], "note": "One overload stands for all of them. That operator bool tells whether a call is defined is refuted."},
 {"property": "C93", "status": "proved", "theorems": ["integral_power_unsigned", "integral_power_signed", "smallest_integral_exact"], "note": "Base types narrower than int, which are promoted, are not modelled. Not mutation-tested."}
]}
