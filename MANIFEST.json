{
 "claims": [
  {
   "property": "C01",
   "status": "proved",
   "theorems": [
    "C01_rows_roundtrip",
    "C01_data_offsets_iff",
    "C01_data_offsets_tile",
    "C01_node_data_iff",
    "C01_regular_iff",
    "C01_regular_links",
    "C01_num_links",
    "C01_self_links",
    "C01_equality"
   ],
   "note": ""
  },
  {
   "property": "C02",
   "status": "proved",
   "theorems": [
    "C02_transpose",
    "C02_transposed_row_relation",
    "C02_transpose_out_of_range",
    "C02_transpose_dofmap",
    "C02_transpose_dofmap_no_cells_refuted"
   ],
   "note": "transpose_dofmap with zero cells computes max over an empty range: that case is refuted and excluded from the statement."
  },
  {
   "property": "C03",
   "status": "proved",
   "theorems": [
    "C03_radix_sort",
    "C03_radix_sort_signed",
    "C03_digit_as_wide_as_key_refuted",
    "C03_counter_overflow_refuted"
   ],
   "note": "Proved for digit width < key width and counters that hold the number of elements; both conditions are shown necessary by the _refuted theorems."
  },
  {
   "property": "C04",
   "status": "proved",
   "theorems": [
    "C04_sort_by_perm",
    "C04_sort_by_perm_columns",
    "C04_columns_doc_refuted"
   ],
   "note": "The column-major claim of the code comment is refuted separately; the documented row-lexicographic behaviour is proved."
  },
  {
   "property": "C05",
   "status": "proved",
   "theorems": [
    "C05_sort_unique",
    "C05_sort_unique_throws"
   ],
   "note": ""
  },
  {
   "property": "C06",
   "status": "proved",
   "theorems": [
    "C06_consecutive",
    "C06_balanced",
    "C06_index_owner",
    "C06_index_owner_total"
   ],
   "note": ""
  },
  {
   "property": "C07",
   "status": "proved",
   "theorems": [
    "C07_nbx_result",
    "C07_nbx_can_finish",
    "C07_senders",
    "C07_same_tag_refuted"
   ],
   "note": "Distinct tags per consensus round are a precondition (documented); C07_same_tag_refuted shows it is needed."
  },
  {
   "property": "C08",
   "status": "partial",
   "theorems": [
    "C08_pcx_result_partial",
    "C08_pcx_can_finish",
    "C08_back_to_back_refuted"
   ],
   "note": "Proved for one call (no other call of the same function overlapping in time); C08_back_to_back_refuted gives an execution of two consecutive calls in which a message of the second is received in the first."
  },
  {
   "property": "C09",
   "status": "proved",
   "theorems": [
    "C09_distribute_data",
    "C09_rows_outside_refused",
    "C09_distribute_to_postoffice"
   ],
   "note": ""
  },
  {
   "property": "C10",
   "status": "proved",
   "theorems": [
    "C10_ranges_partition"
   ],
   "note": ""
  },
  {
   "property": "C11",
   "status": "proved",
   "theorems": [
    "C11_local_global_inverse"
   ],
   "note": ""
  },
  {
   "property": "C12",
   "status": "proved",
   "theorems": [
    "C12_constructor",
    "C12_constructor_no_ghosts",
    "C12_dest"
   ],
   "note": ""
  },
  {
   "property": "C13",
   "status": "proved",
   "theorems": [
    "C13_index_to_dest_ranks",
    "C13_shared_indices",
    "C13_weights_src",
    "C13_weights_dest"
   ],
   "note": ""
  },
  {
   "property": "C14",
   "status": "proved",
   "theorems": [
    "C14_compute_owned_indices"
   ],
   "note": ""
  },
  {
   "property": "C15",
   "status": "proved",
   "theorems": [
    "C15_create_sub_index_map",
    "C15_owner_change_refused"
   ],
   "note": ""
  },
  {
   "property": "C16",
   "status": "proved",
   "theorems": [
    "C16_stack_index_maps",
    "C16_numbers_distinct",
    "C16_numbers_bounded",
    "C16_numbers_onto"
   ],
   "note": ""
  },
  {
   "property": "C17",
   "status": "proved",
   "theorems": [
    "C17_scatter_fwd"
   ],
   "note": ""
  },
  {
   "property": "C18",
   "status": "proved",
   "theorems": [
    "C18_scatter_rev",
    "C18_scatter_rev_add"
   ],
   "note": ""
  },
  {
   "property": "C19",
   "status": "proved",
   "theorems": [
    "C19_adjoint"
   ],
   "note": ""
  },
  {
   "property": "C20",
   "status": "partial",
   "theorems": [
    "C20_global_entries",
    "C20_global_length",
    "C20_inner_product",
    "C20_norm_l1",
    "C20_norm_linf_partial",
    "C20_norm_linf_refuted"
   ],
   "note": "norm(linf) is proved when every rank owns an entry; on a rank owning none it dereferences an end iterator (C20_norm_linf_refuted). Exact arithmetic: floating-point rounding, which does depend on the partition, is not modelled."
  },
  {
   "property": "C21",
   "status": "partial",
   "theorems": [
    "C21_orthonormalize_real_partial",
    "C21_orthonormalize_complex_refuted",
    "C21_is_orthonormal"
   ],
   "note": "Proved over the reals; for complex scalars the property is false of the code (C21_orthonormalize_complex_refuted: the projection coefficient is the conjugate of the needed one)."
  },
  {
   "property": "C22",
   "status": "proved",
   "theorems": [
    "C22_insertions",
    "C22_finalize",
    "C22_misuse_fails",
    "C22_accessors"
   ],
   "note": ""
  },
  {
   "property": "C23",
   "status": "partial",
   "theorems": [
    "C23_insertions",
    "C23_outside_pattern_fails",
    "C23_blocked_outside_refuted",
    "C23_modes_agree",
    "C23_expanded_pattern",
    "C23_to_dense"
   ],
   "note": "Proved except one error case: inserting blocks in a matrix without blocks looks up only the first column of a block, so an entry outside the pattern can be written over a neighbour silently (C23_blocked_outside_refuted)."
  },
  {
   "property": "C24",
   "status": "partial",
   "theorems": [
    "C24_pattern_matrices",
    "C24_scatter_rev",
    "C24_wide_columns_refuted"
   ],
   "note": "Proved for global columns below 2^31; beyond that the code narrows received columns to 32 bits and misplaces entries (C24_wide_columns_refuted)."
  },
  {
   "property": "C25",
   "status": "proved",
   "theorems": [
    "C25_mult"
   ],
   "note": ""
  },
  {
   "property": "C26",
   "status": "proved",
   "theorems": [
    "C26_multT"
   ],
   "note": ""
  },
  {
   "property": "C27",
   "status": "proved",
   "theorems": [
    "C27_matmul",
    "C27_block_size"
   ],
   "note": "Exact arithmetic over any ring with decidable equality; stated for runs in which the collective calls match (see C29)."
  },
  {
   "property": "C28",
   "status": "proved",
   "theorems": [
    "C28_transpose",
    "C28_involution"
   ],
   "note": "Stated for runs in which the collective calls match (all ranks or no rank have a neighbour in the column map, see C29); block values are transposed as blocks."
  },
  {
   "property": "C29",
   "status": "partial",
   "theorems": [
    "C29_matmul_partial",
    "C29_constructors",
    "C29_matmul_refuted",
    "C29_transpose_partial",
    "C29_transpose_refuted"
   ],
   "note": "Proved as an equivalence for transpose and matmul: calls match exactly when all ranks or no ranks have neighbours in the column map; C29_transpose_refuted and C29_matmul_refuted give worlds where they do not."
  },
  {
   "property": "C30",
   "status": "proved",
   "theorems": [
    "C30_renumbering",
    "C30_graph",
    "C30_default_reordering",
    "C30_unchecked_refuted"
   ],
   "note": "C30_unchecked_refuted: the result of a user reordering function is not checked; a wrong one gives two dofs the same number or is read out of bounds. The precondition (a permutation) is the documented one. The default reordering is covered by C30_default_reordering."
  },
  {
   "property": "C31",
   "status": "proved",
   "theorems": [
    "C31_shared_dofs",
    "C31_missing_connectivity_refuted"
   ],
   "note": "Preconditions on the topology are those the function assumes (tp_ok); C31_missing_connectivity_refuted shows that the check for computed connectivities covers only the first cell type that needs an entity type."
  },
  {
   "property": "C32",
   "status": "proved",
   "theorems": [
    "C32_global_dofs"
   ],
   "note": "The whole of build_dofmap_data on all ranks: requests complete in any order; consensus of ghosts by any correct NBX."
  },
  {
   "property": "C33",
   "status": "proved",
   "theorems": [
    "C33_real_element",
    "C33_no_cells_refuted"
   ],
   "note": "For meshes with at least one cell; C33_no_cells_refuted: in a mesh without cells no rank owns the dof."
  },
  {
   "property": "C34",
   "status": "partial",
   "theorems": [
    "C34_sub_layout",
    "C34_sub_dofmap",
    "C34_nested_path_refuted",
    "C34_collapse_view",
    "C34_collapse_blocked",
    "C34_permuted_collapse_refuted"
   ],
   "note": "Proved for layouts and dofmaps of any depth when components are taken one at a time (as V.sub(i).sub(j) does) and for both branches of collapse with dofs that are not permuted. Refuted: a component list of length two or more (C34_nested_path_refuted), and collapse of a blocked view of an element with permuted dofs (C34_permuted_collapse_refuted)."
  },
  {
   "property": "C35",
   "status": "proved",
   "theorems": [
    "C35_entity_numbering",
    "C35_thread_independent"
   ],
   "note": "The numbering on one rank, before the communication of C38. The parallel sort of the Boost library is any function that returns a sorted order of the rows; worker threads are any interleaving of cells. Hypotheses: vertex indices are non-negative 32-bit, at most 2^32 rows."
  },
  {
   "property": "C36",
   "status": "proved",
   "theorems": [
    "C36_simplex",
    "C36_quadrilateral",
    "C36_cell_independent"
   ],
   "note": "One entity at a time (build_entity_list loop body); the loop over cells and threads is C35. Vertices of an entity are distinct."
  },
  {
   "property": "C37",
   "status": "partial",
   "theorems": [
    "C37_entity_permutations",
    "C37_wide_indices_refuted"
   ],
   "note": "Proved for global vertex indices below 2^31, every cell type of dimension 2 and 3, thread count and interleaving; C37_wide_indices_refuted shows that the property fails from 2^32 on, because of the narrowing to int in compute_triangle_rot_reflect. Entity tables are assumed to be those of compute_entities (C36)."
  },
  {
   "property": "C38",
   "status": "proved",
   "theorems": [
    "C38_entity_ownership"
   ],
   "note": "get_local_indexing for one entity type on all ranks. Preconditions: an entity that is only in ghost cells of a rank is in an owned cell of some rank; sizes fit in 64-bit integers."
  },
  {
   "property": "C39",
   "status": "proved",
   "theorems": [
    "C39_reorder_rcm",
    "C39_directed_refuted"
   ],
   "note": "For undirected graphs (the documented input). C39_directed_refuted shows that symmetry is needed. Only the permutation property is stated, not bandwidth."
  },
  {
   "property": "C40",
   "status": "partial",
   "theorems": [
    "C40_entity_boxes",
    "C40_padding",
    "C40_points_partial",
    "C40_single_leaf_refuted"
   ],
   "note": "Proved for any monotone arithmetic (exact, or rounded doubles without overflow) except for a tree with a single leaf whose entity is not 0 and a point outside its box: there the code reads a node that does not exist (C40_single_leaf_refuted)."
  },
  {
   "property": "C41",
   "status": "proved",
   "theorems": [
    "C41_trees"
   ],
   "note": "For any monotone arithmetic, including rounded doubles without overflow."
  },
  {
   "property": "C42",
   "status": "proved",
   "theorems": [
    "C42_closest",
    "C42_exact",
    "C42_padded_vertices_refuted"
   ],
   "note": "The distance function is a parameter bounded below by the box distance (GJK is not modelled). C42_padded_vertices_refuted: for trees of vertices with padding the code measures the distance to the lower corner of the padded box, not to the vertex."
  },
  {
   "property": "C43",
   "status": "partial",
   "theorems": [
    "C43_entity_trees",
    "C43_cloud_partial",
    "C43_cloud_refuted"
   ],
   "note": "Proved for trees of entities; for point clouds only the first coordinate is bounded (C43_cloud_partial) and the property is false (C43_cloud_refuted): a query at one of the points finds nothing."
  },
  {
   "property": "C44",
   "status": "proved",
   "theorems": [
    "C44_set_function",
    "C44_set_constant",
    "C44_constant_rejects",
    "C44_set_pair",
    "C44_set_zero",
    "C44_mark_dofs",
    "C44_dof_indices",
    "C44_pair_indices"
   ],
   "note": ""
  },
  {
   "property": "C45",
   "status": "proved",
   "theorems": [
    "C45_matrix_with_bcs",
    "C45_set_diagonal",
    "C45_added_diagonal_refuted"
   ],
   "note": "Exact arithmetic over any ring. With an adding function (as PETSc users may pass) overlapping boundary conditions double the diagonal: C45_added_diagonal_refuted."
  },
  {
   "property": "C46",
   "status": "proved",
   "theorems": [
    "C46_lifting",
    "C46_system"
   ],
   "note": "Exact arithmetic over any ring, one process (all dofs owned), one block (j = 0), test and trial space the same."
  },
  {
   "property": "C47",
   "status": "partial",
   "theorems": [
    "C47_vector",
    "C47_matrix",
    "C47_scalar",
    "C47_order",
    "C47_entity_order",
    "C47_mixed_topology_refuted"
   ],
   "note": "Exact arithmetic over any ring; kernels, dof transformations and coefficients are arbitrary. Proved for vectors and functionals on meshes with one cell type and for matrices in general; C47_mixed_topology_refuted: on a mesh with two cell types vector assembly adds the contribution of an exterior facet integral once per cell type. The choice of the entities of each integral is an input here."
  },
  {
   "property": "C48",
   "status": "partial",
   "theorems": [
    "C48_local",
    "C48_remote_partial",
    "C48_owned",
    "C48_sound",
    "C48_pair_local",
    "C48_pair_remote_partial",
    "C48_pair_owned",
    "C48_ghost_refuted"
   ],
   "note": "Exact characterisation of the result for one space and for a pair of spaces. For the dofs a rank owns the property holds in full (C48_owned, C48_pair_owned), and nothing is returned that lies on no entity (C48_sound). C48_ghost_refuted: a ghost dof that lies only on an entity of a rank that is neither its owner nor adjacent is not returned. Hypotheses: the connectivities fit together and the dofs of an entity do not depend on the cell."
  },
  {
   "property": "C49",
   "status": "proved",
   "theorems": [
    "C49_entity_map",
    "C49_rejects"
   ],
   "note": "For injective maps (a list with repeated parent entities has no inverse)."
  },
  {
   "property": "C50",
   "status": "proved",
   "theorems": [
    "C50_find",
    "C50_rejects",
    "C50_create_meshtags",
    "C50_create_rejects"
   ],
   "note": ""
  },
  {
   "property": "C51",
   "status": "partial",
   "theorems": [
    "C51_names",
    "C51_unknown_names",
    "C51_types",
    "C51_closure_partial",
    "C51_point_refuted"
   ],
   "note": "The tables of the Basix library are copied into the model. cell_entity_closure of a point reads outside the topology table (C51_point_refuted)."
  },
  {
   "property": "C52",
   "status": "proved",
   "theorems": [
    "C52_perm_vtk",
    "C52_unknown",
    "C52_wide_refuted",
    "C52_constant_refuted",
    "C52_transpose",
    "C52_perm_gmsh",
    "C52_apply_permutation",
    "C52_apply_permutation_size"
   ],
   "note": "Every cell type and every degree with at most 65536 nodes; C52_wide_refuted and C52_constant_refuted show that the bounds on the number of nodes are needed. std::cbrt is taken to be exact on cubes."
  },
  {
   "property": "C53",
   "status": "proved",
   "theorems": [
    "C53_subdivision",
    "C53_facet",
    "C53_neighbours",
    "C53_side",
    "C53_longest",
    "C53_cell",
    "C53_cyclic_refuted"
   ],
   "note": "The longest edges of the facets of a tetrahedron have to come from one order of its edges; C53_longest proves that face_long_edge gives such a choice, and C53_cyclic_refuted shows that the condition is needed. Coordinates are exact reals."
  },
  {
   "property": "C54",
   "status": "proved",
   "theorems": [
    "C54_marking"
   ],
   "note": "The number of faces on all ranks is below 2^31 (the sum of the counts is an int32). Longest edges are inputs."
  },
  {
   "property": "C55",
   "status": "proved",
   "theorems": [
    "C55_transfer_cells",
    "C55_transfer_facets",
    "C55_rejects"
   ],
   "note": "Child cell and facet numbers fit in 32 bits; the tables that record parents are inputs. The uniqueness of the parent facet is a hypothesis."
  },
  {
   "property": "C56",
   "status": "proved",
   "theorems": [
    "C56_adjust_indices",
    "C56_room"
   ],
   "note": ""
  },
  {
   "property": "C57",
   "status": "proved",
   "theorems": [
    "C57_squared_norm"
   ],
   "note": ""
  },
  {
   "property": "C58",
   "status": "proved",
   "theorems": [
    "C58_global_tree"
   ],
   "note": "For any monotone arithmetic, including rounded doubles without overflow."
  },
  {
   "property": "C59",
   "status": "partial",
   "theorems": [
    "C59_cells",
    "C59_interior_partial",
    "C59_exterior_partial",
    "C59_repeated_defaults",
    "C59_integration_domains",
    "C59_argument_cells",
    "C59_second_default_refuted"
   ],
   "note": "Cell integrals are proved in full. Facet, vertex and ridge integrals are proved for one cell type and at most one default integral of a kind; C59_second_default_refuted: the list of default entities is kept between integrals and appended to, so a second default integral has every entity twice (C59_repeated_defaults gives the exact number of copies)."
  },
  {
   "property": "C60",
   "status": "proved",
   "theorems": [
    "C60_dual_graph",
    "C60_threads",
    "C60_symmetric",
    "C60_local",
    "C60_one_process",
    "C60_number_of_processes_refuted",
    "C60_joint_refuted",
    "C60_rejects"
   ],
   "note": "Facets below 2^63 in number, vertex numbers in [0, 2^63-1). The rows of one process are proved with multiplicities (C60_one_process); C60_number_of_processes_refuted: they differ from those of several processes. C60_joint_refuted: the bound on the cells per facet is needed."
  },
  {
   "property": "C61",
   "status": "partial",
   "theorems": [
    "C61_adjacency_list",
    "C61_longer_rows_refuted",
    "C61_fixed_size",
    "C61_no_destination"
   ],
   "note": "Rows of fixed size (the overload used for cells) are proved in full. Adjacency lists are proved when the first node of some rank has the largest number of links; C61_longer_rows_refuted: otherwise links are replaced by other numbers."
  },
  {
   "property": "C62",
   "status": "proved",
   "theorems": [
    "C62_ghosts",
    "C62_local_to_global",
    "C62_local_to_global_throws",
    "C62_local_to_local",
    "C62_repeated_indices_refuted"
   ],
   "note": "C62_repeated_indices_refuted shows why the second numbering must be free of repetitions."
  },
  {
   "property": "C63",
   "status": "proved",
   "theorems": [
    "C63_cells",
    "C63_geometry"
   ],
   "note": "The dofmaps of the geometry are assumed to number the nodes of the held cells (same number for the same node only, no gaps)."
  },
  {
   "property": "C64",
   "status": "proved",
   "theorems": [
    "C64_topology",
    "C64_sharing_ranks",
    "C64_wide_indices_refuted"
   ],
   "note": "Boundary vertices are below 2^31: C64_wide_indices_refuted shows that the code narrows them to 32 bits. Assumes, as the code does, that the given boundary vertices include every vertex that owned cells of two ranks share."
  },
  {
   "property": "C65",
   "status": "proved",
   "theorems": [
    "C65_single",
    "C65_several",
    "C65_topology",
    "C65_pinched_refuted",
    "C65_joint_refuted",
    "C65_part_refuted"
   ],
   "note": "C65_topology assumes that the cells around each vertex are connected through facets with the vertex (C65_pinched_refuted: otherwise a shared vertex is missed and numbered twice); for several cell types that facets have at most two cells (C65_joint_refuted) and no facet has a part of the vertices of another (C65_part_refuted)."
  },
  {
   "property": "C66",
   "status": "proved",
   "theorems": [
    "C66_submesh",
    "C66_shared_cells",
    "C66_owner_must_choose",
    "C66_prism_facets"
   ],
   "note": "C66_shared_cells assumes that the parent mesh has the same vertices, geometry dofs (after the permutation by Basix) and points for a shared entity on all ranks."
  },
  {
   "property": "C67",
   "status": "proved",
   "theorems": [
    "C67_transfer",
    "C67_dimension",
    "C67_max_value_refuted"
   ],
   "note": "For values other than the largest of the type, which mark entities without a tag in the code: C67_max_value_refuted shows that such a tag is lost."
  },
  {
   "property": "C68",
   "status": "proved",
   "theorems": [
    "C68_owners",
    "C68_same_point"
   ],
   "note": "For any search trees, distances and sparse-exchange order: owners, sources, points and cells as stated (first colliding rank and cell, else closest with ties to the lower rank and earlier cell); the same point has one owner."
  },
  {
   "property": "C69",
   "status": "proved",
   "theorems": [
    "C69_distribute",
    "C69_repeated_nodes_refuted",
    "C69_unused_nodes_refuted"
   ],
   "note": "For input indices below the number of nodes (C69_unused_nodes_refuted shows a mesh with unused input nodes that violates this), element layouts whose closure dofs are distinct and meshes whose nodes are listed once per process; C69_repeated_nodes_refuted shows that the second condition is needed."
  },
  {
   "property": "C70",
   "status": "proved",
   "theorems": [
    "C70_box",
    "C70_box_others",
    "C70_triangles",
    "C70_quadrilaterals",
    "C70_interval",
    "C70_prism_subcomm_refuted",
    "C70_point_order_refuted"
   ],
   "note": "About the points and cells passed to create_mesh, with real coordinates (no rounding). Prisms need subcomm to be the whole communicator (C70_prism_subcomm_refuted); the points must be in order, against the documentation (C70_point_order_refuted); widths must not be below the code's epsilon tests."
  },
  {
   "property": "C71",
   "status": "proved",
   "theorems": [
    "C71_inverse",
    "C71_determinant",
    "C71_simplex",
    "C71_push_forward",
    "C71_newton",
    "C71_newton_affine",
    "C71_working_array"
   ],
   "note": "In exact real arithmetic (no rounding, fused multiply-adds exact). Tabulation of basis functions is Basix and arbitrary in the model, except for degree-one simplices. Convergence of Newton's method for maps that are not affine is not claimed."
  },
  {
   "property": "C72",
   "status": "proved",
   "theorems": [
    "C72_divides",
    "C72_facets",
    "C72_refine",
    "C72_shared",
    "C72_pyramid_refuted",
    "C72_pyramids_only_refuted",
    "C72_curved_refuted"
   ],
   "note": "For cells other than pyramids, with one geometry node per vertex. Pyramids: C72_pyramid_refuted (the children leave a hole), C72_pyramids_only_refuted; higher-order geometry throws (C72_curved_refuted). Geometry in exact arithmetic; the mean of an entity is in the arithmetic of the code. What create_mesh does with the result is C32, C65 and others."
  },
  {
   "property": "C73",
   "status": "proved",
   "theorems": [
    "C73_distance",
    "C73_nearest",
    "C73_distances",
    "C73_tie_refuted",
    "C73_uninitialised_refuted"
   ],
   "note": "In exact arithmetic. With two equal products the result can be wrong (C73_tie_refuted), and so can it be if a value that is never written is positive (C73_uninitialised_refuted). That 15 iterations are enough is not claimed: the code throws otherwise."
  },
  {
   "property": "C74",
   "status": "proved",
   "theorems": [
    "C74_point_values",
    "C74_moments",
    "C74_same_element",
    "C74_same_map",
    "C74_eval",
    "C74_round_trip"
   ],
   "note": "Elements with identity map, over any type of numbers with any addition and multiplication (the sums are those of the code, in its order). Piola-mapped elements and pairs of elements with different maps are not modelled; basis function values at the points are an argument."
  },
  {
   "property": "C75",
   "status": "proved",
   "theorems": [
    "C75_values",
    "C75_function",
    "C75_points",
    "C75_value_size_refuted"
   ],
   "note": "For point evaluation elements into which the values are interpolated, and functions of the same value size; that sizes are not compared is refuted separately (C75_value_size_refuted). Basis function values of the other function at a point are an argument; owners of points are those of C68."
  },
  {
   "property": "C76",
   "status": "proved",
   "theorems": [
    "C76_pattern",
    "C76_rank",
    "C76_rows",
    "C76_fits",
    "C76_assembled"
   ],
   "note": "The cells of the arguments of each integral are those that the form holds (C59); block offsets and lifting to nested matrices are not part of it."
  },
  {
   "property": "C77",
   "status": "proved",
   "theorems": [
    "C77_packed",
    "C77_rows",
    "C77_facet_rows",
    "C77_unset",
    "C77_lower_dim",
    "C77_entities",
    "C77_entities_small",
    "C77_constants"
   ],
   "note": "The cells of the coefficients are those that the form holds, whose computation is part of C59. One cell type: function spaces on several cell types are refused by the function space itself."
  },
  {
   "property": "C78",
   "status": "proved",
   "theorems": [
    "C78_stacked",
    "C78_finalized",
    "C78_finalised_fails"
   ],
   "note": "The block sizes given are those paired with the maps, and entries are rows and columns of the maps; the code has a FIXME about checking both and checks neither."
  },
  {
   "property": "C79",
   "status": "proved",
   "theorems": [
    "C79_numbers",
    "C79_numbering",
    "C79_after_marking",
    "C79_interval",
    "C79_coordinates",
    "C79_midpoint"
   ],
   "note": "The node of a vertex is the same in all cells of the process, and every owned vertex is in a cell; marks agree on shared edges, which is shown for intervals and, through C54, for triangles and tetrahedra. Coordinates are real numbers. Option for parent facets of intervals is refused by the code."
  },
  {
   "property": "C80",
   "status": "proved",
   "theorems": [
    "C80_destinations",
    "C80_directed_refuted",
    "C80_identity",
    "C80_owner",
    "C80_first_ghost_refuted"
   ],
   "note": "Links that go one way overflow a receive buffer (C80_directed_refuted); the dual graph is symmetric (C60). For parents that are ghosts, which the refinement functions do not produce, the first ghost is taken for an owned cell (C80_first_ghost_refuted)."
  },
  {
   "property": "C81",
   "status": "proved",
   "theorems": [
    "C81_marked",
    "C81_largest_marked",
    "C81_distribution",
    "C81_documented_refuted"
   ],
   "note": "Exact arithmetic. The documentation says that indicators equal to the threshold are marked too (C81_documented_refuted)."
  },
  {
   "property": "C82",
   "status": "proved",
   "theorems": [
    "C82_solve",
    "C82_missing",
    "C82_default",
    "C82_linear",
    "C82_relative_refuted"
   ],
   "note": "The residual and Jacobian functions overwrite their results. The relative test does not use the initial residual, as residual0() is documented (C82_relative_refuted)."
  },
  {
   "property": "C83",
   "status": "proved",
   "theorems": [
    "C83_coordinates",
    "C83_located",
    "C83_pairs",
    "C83_mixed_refuted"
   ],
   "note": "Requires cells to agree on the points of shared dofs, elements without dof transformations, and no element with more points than the first one (C83_mixed_refuted)."
  },
  {
   "property": "C84",
   "status": "proved",
   "theorems": [
    "C84_interpolation",
    "C84_conforming",
    "C84_value_sizes_refuted"
   ],
   "note": "In a ring (rounding and the clamping of small basis values are not modelled). Requires that the value size of the second space is that of the first (C84_value_sizes_refuted)."
  },
  {
   "property": "C85",
   "status": "proved",
   "theorems": [
    "C85_gradient",
    "C85_curl"
   ],
   "note": "In a ring. The dof transformations of the first space in discrete_gradient are not applied by the code."
  },
  {
   "property": "C86",
   "status": "proved",
   "theorems": [
    "C86_mesh",
    "C86_meshtags",
    "C86_flat_refuted"
   ],
   "note": "For data sets with rows (shape in the file as in the XML file), not empty. Flat data sets, which get_dataset means to support, are never read (C86_flat_refuted)."
  },
  {
   "property": "C87",
   "status": "proved",
   "theorems": [
    "C87_points",
    "C87_cells",
    "C87_tensor_refuted"
   ],
   "note": "Tensors in two dimensions are padded at the end of the row, not row by row, so they are not the 3x3 tensors that the file says (C87_tensor_refuted)."
  },
  {
   "property": "C88",
   "status": "proved",
   "theorems": [
    "C88_values",
    "C88_point_values",
    "C88_moments",
    "C88_rejected"
   ],
   "note": "The dof transformations, the kernel and packed coefficients (C77) are arguments; points are compared exactly. Spaces with a non-identity map are not covered."
  },
  {
   "property": "C89",
   "status": "proved",
   "theorems": [
    "C89_contains",
    "C89_parts",
    "C89_blocks"
   ],
   "note": "Root space ids (random UUIDs) are taken to be different. Arrays of forms whose rows have different lengths are not covered."
  },
  {
   "property": "C90",
   "status": "proved",
   "theorems": [
    "C90_cells",
    "C90_points",
    "C90_ghosts_refuted",
    "C90_degree_refuted"
   ],
   "note": "Files are lists of values; creating the mesh from what is read is not covered. The conditions are needed: C90_ghosts_refuted (ghost cells of a type that is not the last: the file cannot be read) and C90_degree_refuted (prisms of degree 2 and 20-node hexahedra cannot be read back, pyramids of degree 2 come back with degree 1)."
  },
  {
   "property": "C91",
   "status": "proved",
   "theorems": [
    "C91_steps",
    "C91_empty_process_refuted"
   ],
   "note": "One of point and cell data; the constant data sets (CellOffsets and others) are not modelled. C91_empty_process_refuted: with a process that owns no points or cells there is a division by zero."
  },
  {
   "property": "C92",
   "status": "proved",
   "theorems": [
    "C92_space",
    "C92_mesh",
    "C92_values",
    "C92_tensors_refuted"
   ],
   "note": "What is handed to ADIOS2, on one process; the ADIOS2 engine and its files are not modelled. C92_tensors_refuted: entries of tensors smaller than three by three, and of symmetric tensors, are not placed by row and column."
  },
  {
   "property": "C93",
   "status": "partial",
   "theorems": [
    "C93_cells",
    "C93_points_partial",
    "C93_order_refuted",
    "C93_padding_refuted"
   ],
   "note": "Proved for cells (C93_cells), and for points (C93_points_partial) on meshes of dimension three if no zeros are needed and on others if the function is in the space of the points. The full statement is false in the other cases: C93_order_refuted (another dof map, mesh not of dimension three: values at wrong points) and C93_padding_refuted (two components on a mesh of dimension three: too few values). One process; XML is not modelled."
  },
  {
   "property": "C94",
   "status": "proved",
   "theorems": [
    "C94_get",
    "C94_reduce",
    "C94_extremes",
    "C94_average_refuted"
   ],
   "note": "Titles, the order of entries and the text of str() are not modelled; smallest and largest are for total orders (no NaN). C94_average_refuted: the average is over all processes, also those without the entry."
  },
  {
   "property": "C95",
   "status": "partial",
   "theorems": [
    "C95_timing",
    "C95_list_partial",
    "C95_list_refuted",
    "C95_table",
    "C95_single"
   ],
   "note": "Counts and sums (C95_timing), the rows of the table of a process (C95_table) and listing on one process (C95_single) are proved. On several processes listing fails exactly if the first has timed some task and another has timed a task that the first has not (C95_list_partial, C95_list_refuted). The text of the table is not covered."
  },
  {
   "property": "C96",
   "status": "partial",
   "theorems": [
    "C96_root",
    "C96_other",
    "C96_rank_type",
    "C96_data",
    "C96_python_partial",
    "C96_python_refuted",
    "C96_total"
   ],
   "note": "Proved for the C++ function with any root (C96_root, C96_other), the totals of weights (C96_total), the split by shared memory (C96_rank_type) and the lists (C96_data). From Python the graph is always on rank 0 (C96_python_partial), so the property is false there for another root (C96_python_refuted). The JSON text is not modelled."
  }
 ]
}