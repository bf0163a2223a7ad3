{"id": "C01", "title": "AdjacencyList construction and links", "statement": "Building an adjacency list from per-node link lists and reading links(i) back returns exactly the i-th list; num_nodes is the number of lists; the (data, offsets) constructor succeeds exactly when offsets.back() equals the data size; the regular constructor succeeds exactly when the data size is a multiple of the degree (empty data when the degree is 0), and then every node has exactly `degree` links; the links of all nodes concatenated in order are the data array.", "quantifier": "every list of link lists, every data/offset array, every degree", "why_tests_cant": "Tests fix a handful of shapes; empty nodes, empty graphs, zero degree and trailing empty nodes are combinatorially many.", "anchors": ["cpp/dolfinx/graph/AdjacencyList.h: AdjacencyList, links, num_nodes, regular_adjacency_list"]}
{"id": "C02", "title": "Transposed connectivity is the exact inverse relation", "statement": "The connectivity d1->d0 computed from d0->d1 lists entity e under vertex v exactly as many times as v occurs in the links of e, in increasing order of e, for every number of target entities; nothing else appears. The transposed dofmap gives the same for dofs and cells when there is at least one cell.", "quantifier": "every connectivity (any sizes, repeated and missing links)", "why_tests_cant": "Off-by-one offset bugs only show for particular degree patterns (isolated nodes, last node unused).", "anchors": ["cpp/dolfinx/mesh/topologycomputation.cpp: compute_from_transpose", "cpp/dolfinx/fem/DofMap.cpp: transpose_dofmap"]}
{"id": "C03", "title": "radix_sort is a stable sort", "statement": "radix_sort leaves a sorted, stable permutation of its input under the (unsigned-projected) key, for every integer type, digit width, projection and input, including negative keys, as long as the digit is narrower than the key type and the counter type can hold the number of elements.", "quantifier": "every input list, key width, digit width", "why_tests_cant": "Number of passes and the odd/even buffer copy depend on the maximum key; the counter type overflow needs inputs larger than any test.", "anchors": ["cpp/dolfinx/common/sort.h: radix_sort, __unsigned_projection"]}
{"id": "C04", "title": "sort_by_perm returns the lexicographic permutation", "statement": "sort_by_perm(x, shape1) returns a permutation of the row indices that lists the rows of x in nondecreasing lexicographic order, ties in original order.", "quantifier": "every array, every number of columns", "why_tests_cant": "The result depends on stability of every pass for every tie pattern.", "anchors": ["cpp/dolfinx/common/sort.h: sort_by_perm"]}
{"id": "C05", "title": "sort_unique returns each index once with a value it had", "statement": "sort_unique(indices, values) fails exactly when the lengths differ; otherwise the returned indices are strictly increasing, are exactly the set of input indices, and each comes with the smallest value paired with it in the input.", "quantifier": "all index/value arrays", "why_tests_cant": "Duplicate patterns are unbounded.", "anchors": ["cpp/dolfinx/common/utils.h: sort_unique"]}
{"id": "C06", "title": "local_range partitions and index_owner inverts it", "statement": "For every global size N and number of ranks P, the ranges local_range(r, N, P) are consecutive, disjoint, cover [0,N), differ in length by at most one, and index_owner(P, i, N) is the unique rank whose range contains i.", "quantifier": "every N >= 0, P >= 1, rank, index", "why_tests_cant": "Boundary cases i = r*(n+1), N < P, N mod P = 0 for all P and N.", "anchors": ["cpp/dolfinx/common/local_range.h: local_range", "cpp/dolfinx/common/MPI.h: index_owner"]}
{"id": "C07", "title": "Non-blocking consensus finds exactly the in-neighbours under every schedule", "statement": "compute_graph_edges_nbx: in every interleaving of message delivery, acknowledgement and barrier progress, when a rank returns, the list it returns is exactly (as a multiset) the set of ranks that named it as destination; no rank can return before every message sent to it was received; every rank can finish. Consecutive or overlapped rounds use different tags.", "quantifier": "every number of ranks, every destination sets, every schedule of sends, matches and barrier progress", "why_tests_cant": "The failure would be a race: a rank leaving the barrier before a message arrives. Tests see one schedule.", "anchors": ["cpp/dolfinx/common/MPI.cpp: compute_graph_edges_nbx, nbx_consensus_rounds"]}
{"id": "C08", "title": "Personalised census finds exactly the in-neighbours", "statement": "compute_graph_edges_pcx returns on each rank exactly the ranks that named it, for every edge set and every order in which messages are received.", "quantifier": "every number of ranks, edge sets, receive order", "why_tests_cant": "Receive order (ANY_SOURCE) is nondeterministic.", "anchors": ["cpp/dolfinx/common/MPI.cpp: compute_graph_edges_pcx"]}
{"id": "C09", "title": "distribute_data returns the requested rows", "statement": "Rows of a globally numbered array passed in arbitrary contiguous distribution, redistributed with distribute_data(indices), come back so that the i-th row returned on a rank is row indices[i] of the global array, for any distribution of the input, any requests (repeated, unordered, remote or local).", "quantifier": "every number of ranks, data distribution, index request lists", "why_tests_cant": "Needs every combination of owner, post-office rank and requester.", "anchors": ["cpp/dolfinx/common/MPI.h: distribute_to_postoffice, distribute_from_postoffice, distribute_data", "cpp/dolfinx/common/MPI.cpp: postoffice_plan"]}
{"id": "C10", "title": "IndexMap ranges partition the global index set", "statement": "For any local sizes the index maps created on all ranks have consecutive disjoint local ranges that cover [0, size_global), size_global equals the sum of sizes on every rank, and every global index is owned by exactly one rank.", "quantifier": "every number of ranks and local sizes (including zero)", "why_tests_cant": "Zero-sized ranks and any number of ranks.", "anchors": ["cpp/dolfinx/common/IndexMap.cpp: IndexMap constructors", "cpp/dolfinx/common/IndexMap.h: local_range, size_global"]}
{"id": "C11", "title": "local_to_global and global_to_local are mutually inverse", "statement": "On every rank global_to_local(local_to_global(i)) = i for every local index (owned or ghost) and local_to_global(global_to_local(g)) = g for every global index present, -1 exactly for global indices that are neither owned nor ghosted; global_indices lists all of them in local order.", "quantifier": "every index map and index", "why_tests_cant": "Boundary between owned/ghost, ghosts in any order.", "anchors": ["cpp/dolfinx/common/IndexMap.cpp: local_to_global, global_to_local, global_indices"]}
{"id": "C12", "title": "IndexMap neighbour ranks are sorted, complete and symmetric", "statement": "src() is the sorted set of owners of the local ghosts, dest() is the sorted set of ranks that ghost an index owned here; hence r is in src of s iff s is in dest of r.", "quantifier": "every number of ranks, every ghost distribution", "why_tests_cant": "A missed neighbour deadlocks or drops data only for certain ghost graphs.", "anchors": ["cpp/dolfinx/common/IndexMap.cpp: build_src_dest, IndexMap constructor"]}
{"id": "C13", "title": "index_to_dest_ranks and shared_indices report exactly who sees an index", "statement": "index_to_dest_ranks lists for every owned index exactly the ranks ghosting it, and for every ghost exactly the other ranks (owner and other ghosting ranks) that see it; shared_indices lists exactly the owned indices ghosted somewhere, sorted, once; the weights returned by weights_src/weights_dest are the numbers of ghosts per neighbour.", "quantifier": "every index map world", "why_tests_cant": "Sharing patterns with 3+ ranks.", "anchors": ["cpp/dolfinx/common/IndexMap.cpp: index_to_dest_ranks, shared_indices, weights_src, weights_dest"]}
{"id": "C14", "title": "compute_owned_indices gathers indices marked on any rank", "statement": "compute_owned_indices(indices, map) returns on the owner, sorted and without repetition, exactly the owned indices marked by some rank (owner or ghosting).", "quantifier": "every map and every marking on every rank", "why_tests_cant": "Marks placed only on ghosts of a third rank.", "anchors": ["cpp/dolfinx/common/IndexMap.cpp: compute_owned_indices, communicate_ghosts_to_owners"]}
{"id": "C15", "title": "create_sub_index_map yields a consistent sub map", "statement": "The sub index map built from marked indices contains precisely the (deduplicated) marked indices; owned ones keep their relative order; the global number a ghost gets in the sub map is the number its (possibly new) owner gives it; the returned old-local indices list them in sub-map order; if an owned index is not marked by its owner but by ghosts exactly one marking rank becomes the new owner.", "quantifier": "every map, marking, ghost order option", "why_tests_cant": "Ownership transfer involves multi-rank agreement.", "anchors": ["cpp/dolfinx/common/IndexMap.cpp: compute_submap_indices, compute_submap_ghost_indices, create_sub_index_map"]}
{"id": "C16", "title": "stack_index_maps numbers the concatenation consistently", "statement": "stack_index_maps of (map,bs) pairs gives a rank offset and for every ghost of every map the global index its owner assigns in the stacked numbering; the numberings of different maps never collide.", "quantifier": "every list of maps and block sizes, every number of ranks", "why_tests_cant": "Offsets interact across ranks and maps.", "anchors": ["cpp/dolfinx/common/IndexMap.cpp: stack_index_maps"]}
{"id": "C17", "title": "Forward scatter copies owner values to all ghosts", "statement": "After Vector::scatter_fwd every ghost block holds the value its owner holds, and owned entries are unchanged, for every block size; repeated scatters are idempotent.", "quantifier": "every index map world, block size and data", "why_tests_cant": "Packing permutations with several neighbours and ghosts in any order.", "anchors": ["cpp/dolfinx/common/Scatterer.h: Scatterer", "cpp/dolfinx/la/Vector.h: scatter_fwd, scatter_fwd_begin, scatter_fwd_end"]}
{"id": "C18", "title": "Reverse scatter accumulates all ghost contributions exactly once", "statement": "After Vector::scatter_rev with addition every owned entry equals its old value plus the sum over all ranks of the old values of their ghosts of that entry; ghost entries are unchanged.", "quantifier": "every index map world, block size and data", "why_tests_cant": "Counting errors appear only for multiply-ghosted indices.", "anchors": ["cpp/dolfinx/la/Vector.h: scatter_rev", "cpp/dolfinx/common/Scatterer.h"]}
{"id": "C19", "title": "Forward and reverse scatter are adjoint", "statement": "For all vectors x (owned data) and y (full local data): <scatter_fwd x, y> = <x, scatter_rev y> summed over ranks.", "quantifier": "every index map world and all vectors", "why_tests_cant": "Algebraic identity over all data.", "anchors": ["cpp/dolfinx/common/Scatterer.h", "cpp/dolfinx/la/Vector.h"]}
{"id": "C20", "title": "Inner products and norms do not depend on the partition", "statement": "inner_product, squared_norm and norm (l1, l2 squared, linf) computed in parallel are those of the global vector: ghosts are not counted twice; every rank gets the same value.", "quantifier": "every partition and data", "why_tests_cant": "All partitions.", "anchors": ["cpp/dolfinx/la/Vector.h: inner_product, squared_norm, norm"]}
{"id": "C21", "title": "orthonormalize produces an orthonormal basis", "statement": "If orthonormalize succeeds the vectors are pairwise orthogonal under la::inner_product (as is_orthonormal checks), for real and complex scalars.", "quantifier": "every list of vectors, real or complex", "why_tests_cant": "Complex conjugation mistakes vanish on real test data.", "anchors": ["cpp/dolfinx/la/Vector.h: orthonormalize, is_orthonormal, inner_product"]}
{"id": "C22", "title": "SparsityPattern contains exactly the inserted entries", "statement": "After finalize every owned row of the pattern contains, sorted and once, exactly the columns inserted for it on any rank (owned rows by the owner, ghost rows sent by other ranks) in the column index map extended with new ghosts; off-diagonal offsets split owned and ghost columns; insertion after finalize and reading before finalize fail.", "quantifier": "every sequence of insertions on every rank", "why_tests_cant": "All insertion histories with ghosts rows.", "anchors": ["cpp/dolfinx/la/SparsityPattern.cpp: insert, insert_diagonal, finalize, graph, nnz_diag"]}
{"id": "C23", "title": "MatrixCSR insertion agrees with dense accumulation", "statement": "Any sequence of add (resp. set) calls whose entries lie in the pattern makes the dense view of the matrix equal to that of a dense matrix under the same updates; entries outside the pattern are an error; blocked, compact and expanded insertion agree.", "quantifier": "every CSR pattern, block sizes and call sequence", "why_tests_cant": "Block-size combinations and lower_bound searches on any rows.", "anchors": ["cpp/dolfinx/la/MatrixCSR.h: set, add, to_dense", "cpp/dolfinx/la/matrix_csr_impl.h: insert_csr, insert_blocked_csr, insert_nonblocked_csr"]}
{"id": "C24", "title": "MatrixCSR::scatter_rev moves ghost rows to their owners", "statement": "After scatter_rev every owned entry equals the sum over all ranks of contributions to that global (row, column); ghost rows are zero; the global sum of all entries is conserved.", "quantifier": "every matrix world and data", "why_tests_cant": "Data placement depends on global column lookups of all ghost rows.", "anchors": ["cpp/dolfinx/la/MatrixCSR.h: scatter_rev_begin, scatter_rev_end, MatrixCSR constructor"]}
{"id": "C25", "title": "Matrix-vector product equals the dense product", "statement": "mult(x,y) adds A x to y in the owned rows for the global matrix and vector, any block size and number of ranks, using ghost values of x that were scattered.", "quantifier": "every matrix world, vector and block size", "why_tests_cant": "Split into diagonal/off-diagonal parts, all patterns.", "anchors": ["cpp/dolfinx/la/MatrixCSR.h: mult", "cpp/dolfinx/la/matrix_csr_impl.h: spmv"]}
{"id": "C26", "title": "Transposed product equals the dense transposed product", "statement": "multT(x,y) sets/adds A^T x in owned entries with contributions of other ranks accumulated.", "quantifier": "every matrix world, vector and block size", "why_tests_cant": "Overlapping communication and reverse scatter.", "anchors": ["cpp/dolfinx/la/MatrixCSR.h: multT", "cpp/dolfinx/la/matrix_csr_impl.h: spmvT"]}
{"id": "C27", "title": "matmul computes the matrix product", "statement": "matmul(A,B) stores exactly the nonzero entries of the product A*B, sorted by column in every row, owned columns before ghost columns; block sizes other than 1 are rejected.", "quantifier": "every pair of CSR matrices with compatible maps", "why_tests_cant": "Exact cancellation, ghost rows and column order.", "anchors": ["cpp/dolfinx/la/matmul.h: impl::matmul, fetch_ghost_rows, matmul"]}
{"id": "C28", "title": "transpose computes the transposed matrix and is an involution", "statement": "transpose(A) has entry (j,i) equal to A(i,j) for every block size; transposing twice gives the matrix back.", "quantifier": "every CSR matrix and block size", "why_tests_cant": "All patterns.", "anchors": ["cpp/dolfinx/la/mattrans.h: local_transpose, transpose"]}
{"id": "C29", "title": "Collective calls are matched on every rank", "statement": "In every run of matmul, transpose, scatter construction and index-map construction every rank enters the same sequence of operations that are collective over the communicator.", "quantifier": "every partition, including ranks without neighbours", "why_tests_cant": "A mismatch is a hang that depends on which ranks are isolated.", "anchors": ["cpp/dolfinx/la/matmul.h: fetch_ghost_rows", "cpp/dolfinx/la/mattrans.h: transpose", "cpp/dolfinx/common/IndexMap.cpp", "cpp/dolfinx/common/Scatterer.h"]}
{"id": "C30", "title": "Degree-of-freedom renumbering is a bijection with owned dofs first", "statement": "The renumbering applied while building a dofmap maps original local dofs bijectively, owned ones to [0,owned) and ghosts to [owned, owned+ghosts), for any reordering function that returns a permutation, in particular for the default one.", "quantifier": "every dofmap, ownership assignment and reordering", "why_tests_cant": "Depends on visiting order of cells.", "anchors": ["cpp/dolfinx/fem/dofmapbuilder.cpp: compute_reordering_map, reorder_owned"]}
{"id": "C31", "title": "Cells sharing a mesh entity share its dofs", "statement": "build_basic_dofmaps gives two (cell, local dof) slots the same dof number exactly when they are attached to the same mesh entity (dimension and index) and the same position on it; the total number of dofs is the sum over entities.", "quantifier": "every topology connectivity and element layout", "why_tests_cant": "All meshes and layouts.", "anchors": ["cpp/dolfinx/fem/dofmapbuilder.cpp: build_basic_dofmaps"]}
{"id": "C32", "title": "Global dof numbering is consistent across ranks", "statement": "get_global_indices gives a ghost dof the number that its owner gives to the same dof, for every distribution of entities.", "quantifier": "every number of ranks and sharing", "why_tests_cant": "Multi-rank handshake.", "anchors": ["cpp/dolfinx/fem/dofmapbuilder.cpp: get_global_indices"]}
{"id": "C33", "title": "Real (global constant) element has one global dof per value", "statement": "The dofmap of a real-valued element has exactly one owner of its dofs over all ranks, the others ghost it, every cell maps to it.", "quantifier": "every number of ranks and cells (including ranks without cells)", "why_tests_cant": "Ranks with zero cells.", "anchors": ["cpp/dolfinx/fem/dofmapbuilder.cpp: build_real_element_dofmap"]}
{"id": "C34", "title": "Sub-dofmap extraction and sub-layout selection address the right dofs", "statement": "The view of a sub-element's dofs of a cell are the parent's cell dofs at the component's positions, for any (nested) component list; collapsing renumbers bijectively and the returned map sends collapsed dofs to the parent dofs they came from.", "quantifier": "every layout tree, component path and dofmap", "why_tests_cant": "Nesting depth unbounded.", "anchors": ["cpp/dolfinx/fem/ElementDofLayout.cpp: sub_layout, sub_view", "cpp/dolfinx/fem/DofMap.cpp: extract_sub_dofmap, collapse, build_collapsed_dofmap"]}
{"id": "C35", "title": "Entity numbering identifies equal vertex sets", "statement": "When entities of a dimension are created two cell-local entities get the same entity number iff they have the same vertex set, entity numbers are contiguous from zero, and the result does not depend on num_threads.", "quantifier": "every cell list, vertex numbering and thread count", "why_tests_cant": "Thread split boundaries and sorted keys over all meshes.", "anchors": ["cpp/dolfinx/mesh/topologycomputation.cpp: compute_entities_by_key_matching, build_entity_list"]}
{"id": "C36", "title": "Entity vertex order does not depend on the cell", "statement": "The vertex list stored for an edge/triangle/quadrilateral is the same whichever cell created it (low-to-high orientation), since it depends only on the set (cyclic structure for quadrilaterals) of global vertex indices.", "quantifier": "every vertex numbering and every position of the facet in the cell", "why_tests_cant": "All permutations and all index values.", "anchors": ["cpp/dolfinx/mesh/topologycomputation.cpp: build_entity_list"]}
{"id": "C37", "title": "Entity reflections and rotations are consistent across cells and ranks", "statement": "The reflection bit of an edge and the (rotations, reflection) of a face computed from a cell transform the cell's local view of the entity to the common low-to-high view, so two cells (on any ranks) sharing an entity agree after applying their permutations; the packed cell permutation info stores each 3-bit face and 1-bit edge field recoverably.", "quantifier": "every global vertex numbering up to 2^63", "why_tests_cant": "Truncation shows only for global vertex numbers above 2^31.", "anchors": ["cpp/dolfinx/mesh/permutationcomputation.cpp: compute_triangle_rot_reflect, compute_quad_rot_reflect, compute_edge_reflections, compute_entity_permutations"]}
{"id": "C38", "title": "A shared entity has exactly one owner, agreed by all sharers", "statement": "The owner picked for a shared entity is one of the sharing ranks and is the same on each of them; the local numbering after get_local_indexing puts owned entities first and gives shared entities the owner's global number.", "quantifier": "every set of sharing ranks, vertex numbers and discovery order", "why_tests_cant": "Hash of vertex numbers modulo set size over all sets.", "anchors": ["cpp/dolfinx/mesh/topologycomputation.cpp: get_ownership, get_local_indexing"]}
{"id": "C39", "title": "Reverse Cuthill-McKee returns a permutation", "statement": "graph::reorder_gps / reorder_rcm returns a permutation of the node numbers for every undirected graph, including disconnected graphs and isolated nodes.", "quantifier": "every symmetric graph", "why_tests_cant": "Components, ties and isolated nodes.", "anchors": ["cpp/dolfinx/graph/ordering.cpp: create_level_structure, rcm_reorder_unlabelled, reorder_rcm"]}
{"id": "C40", "title": "Point queries on bounding-box trees return exactly the colliding leaves", "statement": "compute_collisions(tree, points) returns for each point exactly the entities whose own (padded) box contains the point, for every tree built from entity boxes and every pivot choice.", "quantifier": "every entity set, every nth_element outcome, every point", "why_tests_cant": "Pruning errors depend on geometry.", "anchors": ["cpp/dolfinx/geometry/BoundingBoxTree.h: build_from_leaf, compute_bbox_of_bboxes", "cpp/dolfinx/geometry/utils.h: _compute_collisions_point, point_in_bbox"]}
{"id": "C41", "title": "Tree-tree collisions return exactly the intersecting leaf pairs", "statement": "compute_collisions(tree0, tree1) returns exactly the pairs of entities whose boxes intersect.", "quantifier": "every two trees", "why_tests_cant": "Pruning and descent order.", "anchors": ["cpp/dolfinx/geometry/utils.h: _compute_collisions_tree, bbox_in_bbox"]}
{"id": "C42", "title": "Closest-entity search returns a minimiser", "statement": "compute_closest_entity returns an entity of minimal distance to the point, for every tree whose boxes contain their entities and every initial guess with a valid radius.", "quantifier": "every tree, point and distance function bounded below by the box distance", "why_tests_cant": "Pruning with a shrinking radius.", "anchors": ["cpp/dolfinx/geometry/utils.h: _compute_closest_entity, compute_squared_distance_bbox"]}
{"id": "C43", "title": "Point-cloud trees bound their points", "statement": "Every node of a tree built from points has a box containing all points below it, so that queries never miss a point.", "quantifier": "every point set", "why_tests_cant": "Boxes of interior nodes are wrong only for particular point layouts.", "anchors": ["cpp/dolfinx/geometry/BoundingBoxTree.h: _build_from_point"]}
{"id": "C44", "title": "DirichletBC sets exactly its dofs", "statement": "set writes alpha*(g - x0) to exactly the constrained dofs within the array bounds and leaves all other entries alone; alpha = 0 writes zero; mark_dofs marks exactly them; dof_indices returns sorted unrolled dofs with the number of owned ones.", "quantifier": "every bc, vector length and x0", "why_tests_cant": "All sizes and dof lists.", "anchors": ["cpp/dolfinx/fem/DirichletBC.h: set, mark_dofs, dof_indices, unroll_dofs, num_owned"]}
{"id": "C45", "title": "Matrix assembly with boundary conditions zeroes constrained rows and columns only", "statement": "Assembling with boundary conditions produces the unconstrained matrix with exactly the rows and columns of constrained dofs zeroed, independent of cell order; set_diagonal with an inserting function then puts the given value on the diagonal entries of owned constrained dofs and changes nothing else.", "quantifier": "every form (cell, facet and interior facet integrals), dofmap, element tensors and boundary conditions", "why_tests_cant": "All overlaps of marked dofs in cells.", "anchors": ["cpp/dolfinx/fem/assemble_matrix_impl.h: assemble_cells_matrix", "cpp/dolfinx/fem/assembler.h: assemble_matrix, set_diagonal"]}
{"id": "C46", "title": "Lifting, assembly and set_bc together solve the constrained problem", "statement": "With A assembled with bcs and unit diagonal, b lifted with apply_lifting(alpha, x0) and set by set_bc, a vector x solves the modified system exactly when x equals alpha * (g - x0) on the constrained dofs and satisfies the original equations (matrix and vector assembled without boundary conditions) in all unconstrained rows. Test and trial space are the same and all dofs are owned by the process.", "quantifier": "every form, cell list, dofmap, kernels, boundary conditions (overlaps: the last one wins), x0 and alpha", "why_tests_cant": "An end-to-end identity over all data.", "anchors": ["cpp/dolfinx/fem/assemble_vector_impl.h: lift_bc", "cpp/dolfinx/fem/assembler.h: apply_lifting", "cpp/dolfinx/fem/DirichletBC.h: set"]}
{"id": "C47", "title": "Assembly is the sum of element contributions, independent of order", "statement": "Vector, matrix and functional assembly adds the element contribution of every entity of every integral of the form exactly once; permuting the entities of an integral or the order of the integrals does not change the result; the block size specialisations agree with the general code; for matrices in compressed row storage the result holds for any pattern that contains the entries.", "quantifier": "every cell list, dofmap and kernel", "why_tests_cant": "All orders and dofmaps.", "anchors": ["cpp/dolfinx/fem/assemble_vector_impl.h: assemble_cells, assemble_entities, assemble_interior_facets", "cpp/dolfinx/fem/assemble_matrix_impl.h"]}
{"id": "C48", "title": "Dofs located on a facet set are found on all ranks", "statement": "locate_dofs_topological with remote=true returns on each rank exactly the local dofs (owned or ghost) lying on an entity in the set on any rank, sorted and unique.", "quantifier": "every partition, entity set and dofmap", "why_tests_cant": "Dofs touched only by another rank's cells.", "anchors": ["cpp/dolfinx/fem/DirichletBC.cpp: locate_dofs_topological, get_remote_dofs"]}
{"id": "C49", "title": "EntityMap translations are mutually inverse", "statement": "sub_topology_to_topology with inverse=false and inverse=true are mutually inverse on mapped entities, -1 is returned exactly for unmapped ones; wrong sizes are rejected.", "quantifier": "every entity map and query list", "why_tests_cant": "Unordered duplicates and missing entities.", "anchors": ["cpp/dolfinx/mesh/EntityMap.h: EntityMap, sub_topology_to_topology"]}
{"id": "C50", "title": "MeshTags lookups and construction are consistent", "statement": "find(v) returns exactly the tagged entities with value v; create_meshtags from vertex lists tags an entity iff its vertices were given; mismatched sizes are rejected.", "quantifier": "every tag set", "why_tests_cant": "All sets.", "anchors": ["cpp/dolfinx/mesh/MeshTags.h: MeshTags, find, create_meshtags"]}
{"id": "C51", "title": "Cell type tables are mutually consistent", "statement": "to_type(to_string(t)) = t, unknown strings are rejected; entity closures returned by cell_entity_closure, entity vertex tables and entity types agree with each other for all cell types.", "quantifier": "all cell types, dimensions and local indices (finite)", "why_tests_cant": "Finite but never cross-checked as a whole.", "anchors": ["cpp/dolfinx/mesh/cell_types.cpp: to_string, to_type, cell_entity_closure, get_entity_vertices"]}
{"id": "C52", "title": "VTK node permutations are permutations for every degree", "statement": "The VTK/gmsh orderings for Lagrange cells of any polynomial degree are permutations of the node indices, and transpose(p) is the inverse permutation.", "quantifier": "every degree", "why_tests_cant": "Recursive construction over degree.", "anchors": ["cpp/dolfinx/io/cells.cpp: perm_vtk, transpose, vtk_triangle, vtk_quadrilateral"]}
{"id": "C53", "title": "Plaza refinement subdivides a simplex exactly and conformingly", "statement": "For every marking closed under the longest-edge rule, the child simplices tile the parent (volumes add up for every geometry, no degenerate child) and the induced subdivision of a facet depends only on that facet's marks and longest edge, so neighbouring cells match.", "quantifier": "every marking and longest-edge choice; every vertex position", "why_tests_cant": "Tests look at total areas of sample meshes.", "anchors": ["cpp/dolfinx/refinement/plaza.cpp: get_triangles, get_tetrahedra, get_simplices"]}
{"id": "C54", "title": "Edge marking closure terminates in the least closed marking, consistent across ranks", "statement": "enforce_rules terminates, keeps user marks, the result is closed (a face with a marked edge has its longest edge marked), minimal, and sharing ranks agree on shared edges.", "quantifier": "every mesh, sharing and initial marks", "why_tests_cant": "Fixed-point iteration across ranks.", "anchors": ["cpp/dolfinx/refinement/plaza.cpp: enforce_rules", "cpp/dolfinx/refinement/utils.cpp: update_logical_edgefunction"]}
{"id": "C55", "title": "Mesh tags are inherited by children in refinement", "statement": "transfer_cell_meshtag gives each child cell of a tagged parent the parent's value and tags nothing else; output sorted.", "quantifier": "every parent-cell map, tag set and cell reordering", "why_tests_cant": "All permutations of child order.", "anchors": ["cpp/dolfinx/refinement/utils.cpp: transfer_cell_meshtag, transfer_facet_meshtag"]}
{"id": "C56", "title": "Inserting new vertices keeps global numbers unique and consistent", "statement": "adjust_indices renumbers an index map to leave room for n new indices per rank so that numbers stay globally unique, ghosts agree with owners, and exactly n numbers are free after each rank's block.", "quantifier": "every index map world and n per rank", "why_tests_cant": "All ranks and sizes.", "anchors": ["cpp/dolfinx/refinement/utils.cpp: adjust_indices"]}
{"id": "C57", "title": "The Frobenius norm of a distributed matrix counts every entry once", "statement": "squared_norm() returns on every rank the sum over all global entries of the square of the entry, whatever the partition; ghost rows are not counted.", "quantifier": "every matrix world and block size", "why_tests_cant": "Ghost rows and padding must be excluded for every partition.", "anchors": ["cpp/dolfinx/la/MatrixCSR.h: squared_norm"]}
{"id": "C58", "title": "The tree of all processes never misses a process", "statement": "A point query on the tree returned by create_global_tree returns every rank that holds an entity whose (padded) box contains the point, each rank at most once, and no rank whose root box does not contain the point; ranks without entities count as a box at the largest representable number.", "quantifier": "every number of processes, every distribution of entities including empty ranks, every nth_element outcome, every point", "why_tests_cant": "A missed rank appears only for particular partitions and pruning paths.", "anchors": ["cpp/dolfinx/geometry/BoundingBoxTree.h: create_global_tree", "cpp/dolfinx/geometry/utils.h: compute_collisions"]}
{"id": "C59", "title": "Each integral of a form runs over exactly the entities with its id", "statement": "A form created from integrals with ids executes, on each process, the integral with id k over the entities given for k, in the given order, and an integral with the default id (-1) over every entity of its kind that the process owns exactly once: owned cells; owned facets with two cells (an owned facet whose second cell is on another process only is an exception); owned facets on the exterior boundary; owned vertices; owned ridges. Entities are given as (cell, local index) pairs that name the entity. An id without data has no integral. compute_integration_domains returns exactly the owned ones of the given entities, and an argument on another mesh is evaluated on the cell that the entity map relates to the entity.", "quantifier": "every mesh and ownership, every list of ids, every subdomain data, every entity map", "why_tests_cant": "A missed or doubled facet changes an integral by one element contribution for particular partitions, orders of ids and shared facets only.", "anchors": ["cpp/dolfinx/fem/utils.h: create_form_factory", "cpp/dolfinx/fem/utils.cpp: compute_integration_domains", "cpp/dolfinx/mesh/utils.cpp: exterior_facet_indices", "cpp/dolfinx/fem/Form.h: Form", "python/dolfinx/fem/forms.py: get_integration_domains"]}
{"id": "C60", "title": "The dual graph holds exactly the pairs of cells that share a facet", "statement": "build_dual_graph returns on each process, for each of its cells, exactly the cells of the whole mesh (numbered process by process) that have a facet with the same vertices, whatever the distribution of the cells, their types, the order of their vertices, the number of threads and the order of messages; the graph is symmetric. On several processes each neighbour is listed once and in increasing order, provided no facet belongs to more cells than max_facet_to_cell_links. build_local_dual_graph returns the graph of the cells of one process, and the facets attached to fewer than max_facet_to_cell_links of them.", "quantifier": "every number of processes and threads, every distribution of cells including empty processes, every mixture of cell types of one dimension, every interleaving of the threads, every order of message arrival", "why_tests_cant": "A missed neighbour depends on which rank is the post office of a facet, on padding in mixed meshes and on how facets are split between threads.", "anchors": ["cpp/dolfinx/mesh/graphbuild.cpp: build_dual_graph", "cpp/dolfinx/mesh/graphbuild.cpp: build_local_dual_graph", "cpp/dolfinx/mesh/graphbuild.cpp: compute_nonlocal_dual_graph"]}
{"id": "C61", "title": "Every node arrives once at each of its destinations", "statement": "graph::build::distribute delivers each node (row of links, or cell) to every rank in its list of destinations exactly once and nowhere else. On each rank the nodes whose first destination is that rank come first, then the ghosts, both ordered by source rank and original position; with each node come its links, the rank it came from, its original global number and, for ghosts, the owning rank.", "quantifier": "every number of processes including empty ones, every adjacency list or array of rows, every assignment of destinations, every order of message arrival", "why_tests_cant": "Lost, doubled or mixed up nodes depend on the partition and on the order in which messages arrive.", "anchors": ["cpp/dolfinx/graph/partition.cpp: graph::build::distribute"]}
{"id": "C62", "title": "Ghosts get the numbers of their owners; maps between local numberings preserve the global index", "statement": "graph::build::compute_ghost_indices returns, for every ghost, the new global number that the owning process gives to that index (the number of indices owned by lower ranks plus its position), whatever the number of threads and the order of messages. compute_local_to_global returns a map that turns the local links into the global ones, marks unused local indices with -1 and reports different sizes. compute_local_to_local returns for every local index of the first numbering the local index of the second numbering with the same global index.", "quantifier": "every number of processes including ones without owned indices or ghosts, every distribution of owned indices and ghosts, repeated ghosts, any number of threads, every order of message arrival; every pair of local numberings", "why_tests_cant": "A wrong number appears only for particular distributions over processes and particular orders of owners; the shortcut for contiguous indices is taken only for special numberings.", "anchors": ["cpp/dolfinx/graph/partition.cpp: graph::build::compute_ghost_indices, compute_local_to_global, compute_local_to_local"]}
{"id": "C63", "title": "A created mesh keeps every cell and its coordinates", "statement": "mesh::create_mesh, for any partitioning and any reordering of the owned cells: every rank holds the input cells that have it as destination, each once, owned cells first and then ghosts, each with its nodes in the order given and its original number. In the geometry, the coordinates found through the dofmap at position j of a cell are the input coordinates of the node given at position j of the input cell with that original number (filled up with zeros to three components), and the global input index of the dof is that node, wherever the coordinates were stored before.", "quantifier": "every number of processes, every set of cell types and cells, every destination assignment, every permutation of the owned cells, every distribution of coordinates over a sub-communicator, geometric dimensions 1 to 3, every order of message arrival", "why_tests_cant": "The chain of redistribution, reordering, renumbering and lookup of coordinates can fail for particular partitions, orders and numberings only; tests try a few meshes and process counts.", "anchors": ["cpp/dolfinx/mesh/utils.h: create_mesh, create_boundary_vertices_fn, impl::reorder_list", "cpp/dolfinx/mesh/Geometry.h: create_geometry", "cpp/dolfinx/graph/partition.cpp: distribute, compute_local_to_global, compute_local_to_local", "cpp/dolfinx/common/MPI.h: distribute_data"]}
{"id": "C64", "title": "A topology built from distributed cells is consistent", "statement": "mesh::create_topology, given the cells of each rank by input vertex indices (owned cells first, then ghosts with their owners) and the vertices on the process boundary, returns on every rank. Every vertex gets one global number, the same on all ranks, different for different vertices, and the numbers have no gaps; its owner is a rank that owns a cell with it. Every cell of every type likewise. The connectivity lists for each cell exactly its vertices in the given order as local indices of the vertex index map, each local index is used by some cell, and the index maps of vertices and cells are consistent (owned ranges follow each other, each ghost is listed once and owned by the stated other rank). The ranks that share a boundary vertex agree on its owner.", "quantifier": "every number of processes including ones without cells, every set of cell types, every distribution of cells and ghosts, every choice of owners of shared vertices, every order of message arrival, any number of threads; boundary vertices below 2^31", "why_tests_cant": "Ownership, numbering and the two exchanges interact: a vertex that is a ghost through several ranks or known to no neighbour appears only in special partitions, and the owner is chosen at random.", "anchors": ["cpp/dolfinx/mesh/Topology.cpp: determine_sharing_ranks, vertex_ownership_groups, exchange_indexing, exchange_ghost_indexing, convert_to_local_indexing, create_topology"]}
{"id": "C65", "title": "Boundary vertices of a rank cover all shared vertices, and cells move together", "statement": "In mesh::create_mesh, create_boundary_vertices_fn returns for each rank the sorted vertices, each once, of the facets that fewer than max_facet_to_cell_links of its owned cells have (one cell type; all facets without a maximum), or that one owned cell has (several types). Owned cells are reordered by one permutation per type, with their nodes, vertices and original indices; ghosts stay in place. If around every vertex the cells are connected through facets with that vertex, then every vertex that owned cells of two ranks share is among the boundary vertices of both, and create_topology called with the result returns a consistent topology.", "quantifier": "every number of processes, every distribution of cells of any types with ghosts, every reordering function that returns a permutation, every order of threads and messages, every max_facet_to_cell_links that the facets of the mesh respect (with several types: facets in at most two cells and none with a part of the vertices of another)", "why_tests_cant": "A shared vertex that is missed gets two global numbers silently; whether it is missed depends on how the partition cuts the cells around the vertex, and tests use few partitions of regular meshes.", "anchors": ["cpp/dolfinx/mesh/utils.h: create_boundary_vertices_fn, reorder_list, create_mesh"]}
{"id": "C66", "title": "A sub-mesh consists of the chosen entities with their vertices and coordinates on all ranks", "statement": "mesh::create_submesh on entities of any dimension returns on every rank: one cell for every chosen entity and one vertex and one geometry dof for every vertex and geometry dof of a chosen entity, each exactly once, with consistent index maps in which two ranks use the same number exactly for the same entity, vertex or dof of the parent; a new owner has chosen the index, and the old owner stays owner if it has chosen it. Cell j has the vertices and geometry dofs of its parent entity, in the same order; points and input indices are those of the parent; the returned maps lead from sub-mesh to parent. Cells that two ranks share have the same vertices, dofs and points on both. If a rank chooses an entity that its owner does not choose, or facets of prisms or pyramids are chosen, the call fails.", "quantifier": "every number of processes, every parent mesh with consistent index maps, every choice of entities (repeated, unsorted, ghosts included), every dimension, closure and permutation of the coordinate element", "why_tests_cant": "The numbering depends on which ranks choose which ghosts and on who owns the vertices of the chosen entities; tests cover a few choices on small meshes.", "anchors": ["cpp/dolfinx/mesh/utils.h: create_submesh, create_subgeometry, entities_to_geometry", "cpp/dolfinx/mesh/Topology.cpp: create_subtopology", "cpp/dolfinx/mesh/utils.cpp: compute_incident_entities"]}
{"id": "C67", "title": "Tags move to a sub-mesh with their entities", "statement": "transfer_meshtags_to_submesh returns tags on the sub-mesh whose entities are sorted and each listed once, and an entity of the sub-mesh has a tag with value v exactly when the parent entity with the same vertices has the tag v, for tags of any dimension up to that of the sub-mesh and every value other than the largest of the value type; tags on entities that are not in the sub-mesh are dropped; tags of a higher dimension are refused.", "quantifier": "every parent mesh and sub-mesh of any dimension whose entities are given by their vertices, every set of tags with each entity once", "why_tests_cant": "The search goes over sub-cells and compares vertices with inclusion only; a wrong hit depends on the numbering and on which entities are in the sub-mesh, and tests have few tags on regular meshes.", "anchors": ["cpp/dolfinx/mesh/utils.h: transfer_meshtags_to_submesh", "cpp/dolfinx/mesh/EntityMap.h: sub_topology_to_topology"]}
{"id": "C68", "title": "Points are given to one process and one cell that contains them", "statement": "Determining the ownership of points gives each point to the lowest process whose mesh part has a cell that contains it (first such cell); if no cell contains it, to the process and cell closest to it among the cells near it; to no process only if no process has a cell near it. The caller learns the owner of each point, and each owner learns exactly the points given to it, in order of the asking process and of the points there, with the right cell. The same point asked for by several processes has the same owner.", "quantifier": "all numbers of processes, all point lists on each of them, all search results (ranks and candidate cells for a point), all distances, all arrival orders of the sparse exchange", "why_tests_cant": "Tests try a few points on a few meshes and processes; ties between processes, points outside all cells and repeated points depend on the partition and on the floating point distances.", "anchors": ["cpp/dolfinx/geometry/utils.h: determine_point_ownership, compute_first_colliding_cell"]}
{"id": "C69", "title": "Data on mesh entities reaches every process that has the entity", "statement": "Distributing data that is given on entities by their input nodes (in any distribution of entities over processes) gives each process exactly the entities all of whose vertices it has, with local vertex numbers in the order of the input nodes and the value that was given, each as often as it was given. Entities with a vertex the process does not have are left out.", "quantifier": "all numbers of processes, all distributions of entities and of mesh nodes, any element layout (higher-order geometry), any values, all arrival orders of the sparse exchange, any order the unstable sort leaves", "why_tests_cant": "Tests use a few meshes and tag files on few processes; an entity is lost or repeated only for particular distributions of nodes over post offices.", "anchors": ["cpp/dolfinx/io/utils.h: distribute_entity_data"]}
{"id": "C70", "title": "Generated meshes of intervals, rectangles and boxes tile them", "statement": "Creating the mesh of an interval, a rectangle (triangles with any choice of diagonals, quadrilaterals) or a box (tetrahedra, hexahedra, prisms) gives points and cells such that: cells are made of different points, every point is used, no cell is repeated, the cells cover exactly the interval, rectangle or box, and where two cells meet the same vertices have the same weights in both (so cells meet in common facets, edges and vertices only). The numbers of points and cells are those documented, the diagonals run in the direction that was asked for, and the result does not depend on the number of processes that build the points and cells.", "quantifier": "all numbers of cells in each direction, all corners (in order), all cell types, all six diagonal types, all geometric dimensions, all numbers of building processes", "why_tests_cant": "Tests count the entities of a few small meshes and integrate over them; overlaps, gaps and hanging nodes depend on index arithmetic that must be right for all sizes.", "anchors": ["cpp/dolfinx/mesh/generation.h: create_box, create_rectangle, create_interval, impl::build_tet, impl::build_hex, impl::build_prism, impl::build_tri, impl::build_quad, impl::create_geom, impl::create_interval_cells"]}
{"id": "C71", "title": "Pulling back points to the reference cell inverts pushing them forward", "statement": "For every non-degenerate cell of dimension tdim in gdim <= 3 dimensions, the computed inverse of the Jacobian is its inverse (for manifolds the left inverse that solves the normal equations) and the determinant is the determinant (for manifolds the root of the Gram determinant), zero exactly for degenerate cells. On simplices the pull-back of the push-forward of a point is the point, and the pull-back of any other point is that of the closest point of the cell's plane or line. On other cells the result of Newton's method, when it ends, is mapped back to the point up to a multiple of the squared tolerance, and is exact after two iterations if the map is affine. The working array of the reported size is large enough and its parts do not overlap.", "quantifier": "all cells (any vertices, any basis functions), all points, all tdim <= gdim <= 3, all tolerances and iteration limits", "why_tests_cant": "Tests check a few cells and random points with a tolerance; the algebra must hold for every cell, on manifolds too, and near-degenerate cells are not sampled.", "anchors": ["cpp/dolfinx/common/math.h: det, inv, dot, pinv", "cpp/dolfinx/fem/CoordinateElement.h: compute_jacobian, compute_jacobian_inverse, compute_jacobian_determinant, push_forward, pull_back_affine", "cpp/dolfinx/fem/CoordinateElement.cpp: pull_back_nonaffine, pull_back_working_size", "python/dolfinx/wrappers/dolfinx_wrappers/fem.h: pull_back"]}
{"id": "C72", "title": "Uniform refinement divides every cell and agrees on all processes", "statement": "Uniformly refining a mesh of straight triangles, quadrilaterals, tetrahedra, hexahedra and prisms (also mixed) adds one vertex in the middle of every edge, quadrilateral and hexahedron and keeps the old ones; the new vertices have one number on all processes and their coordinates are in the order of the numbers. The cells made of a cell cover exactly this cell, wherever its vertices are, and meet each other in common faces; on a face shared by two cells, of any types, the new cells of both sides have the same faces. Every process contributes the cells made of the cells it owns. Children of different cells share a vertex exactly if it is the middle of the same entity.", "quantifier": "all meshes (any size, any mixture of cell types, any coordinates), all numbers of processes and distributions", "why_tests_cant": "Tests refine unit cubes on a few processes and check counts or the volume; that the tables of children fit together for every orientation of the common face, and that ghost numbers agree for every distribution, is not sampled.", "anchors": ["cpp/dolfinx/refinement/uniform.cpp: uniform_refine", "python/dolfinx/mesh.py: uniform_refine"]}
{"id": "C73", "title": "The distance of two convex bodies is the shortest one", "statement": "For two convex bodies given by their corners, the computed distance vector leads from a point of the second to a point of the first, its squared length exceeds that of any other such vector by at most 2 eps max(1, squared length), and it differs from the shortest one by at most the square root of this; the only other outcome is the exception after too many iterations. In each iteration the point of an interval, triangle or tetrahedron closest to the origin is found. The distances of a list of bodies from one body do not depend on the number of threads and their schedule.", "quantifier": "all pairs of bodies with any numbers of corners, all tolerances, all thread counts and schedules; bodies such that no difference of corners is the foot of the perpendicular from the origin to a line through another one", "why_tests_cant": "Tests compute distances of a few segments, squares and cubes; whether each of the 15 outcomes for a tetrahedron is found in every position, with the degenerate ones in between, is not sampled.", "anchors": ["cpp/dolfinx/geometry/gjk.h: compute_distance_gjk, compute_distances_gjk", "python/dolfinx/geometry.py: compute_distance_gjk, compute_distances_gjk"]}
{"id": "C74", "title": "Interpolation puts into each degree of freedom the value that belongs to it, and evaluation reads it back", "statement": "Interpolating values given at the points of the cells (or a function of the same mesh) into a space changes exactly the degrees of freedom of the given cells; each gets the value of its component at its point, or the element's functional of the values (the interpolation matrix times the values of the cell, or the coefficients of the cell for another function), transformed by the cell's orientation; a shared degree of freedom gets the value of the last cell in the list that has it. Evaluating a function at points gives, for every component, the sum over the basis functions of the cell, with the stored lower triangle for symmetric matrices, and zero for points without a cell. For nodal elements evaluating after interpolating returns the interpolated values.", "quantifier": "all elements with identity map (any block size, number of points, matrix, symmetric or not), all dof maps with any block size (equal to that of the element or not), all lists of cells, values, coefficients and orientations", "why_tests_cant": "Tests interpolate polynomials into a few spaces and compare; wrong strides for blocked, symmetric or unblocked dof maps, subsets and orders of cells, and which degrees of freedom are left alone, are not sampled exhaustively.", "anchors": ["cpp/dolfinx/fem/interpolate.h: interpolate, point_evaluation, identity_mapped_evaluation, interpolate_same_map, interpolation_apply", "cpp/dolfinx/fem/Function.h: interpolate, eval", "python/dolfinx/fem/function.py: Function.interpolate, Function.eval"]}
{"id": "C75", "title": "Interpolation from another mesh gives the values of the function at the points, on any distribution", "statement": "Interpolating a function of another mesh puts into each degree of freedom of the given cells the value of that function at its point, evaluated on the process and in the cell that own the point, or zero if no cell does; nothing else changes. If the values do not depend on the cell and no point is lost, the result is that of interpolating the pointwise values of the function and does not depend on how either mesh is distributed. The points are the interpolation points of the reference cell moved to each cell.", "quantifier": "all numbers of processes, distributions of points and cells, owners, block sizes, symmetric or plain values, dof maps and cell lists; point evaluation elements whose value size is that of the function", "why_tests_cant": "Tests interpolate between a few pairs of meshes on a few processes; points that go to many processes, in any order, repeated or lost, are not sampled exhaustively.", "anchors": ["cpp/dolfinx/fem/interpolate.h: interpolate, scatter_values, interpolation_coords, create_interpolation_data", "python/dolfinx/fem/function.py: Function.interpolate_nonmatching, create_interpolation_data in fem/__init__.py"]}
{"id": "C76", "title": "The matrix created for a bilinear form has exactly the entries of the form, and distributed assembly gives the sum of all element matrices", "statement": "The sparsity pattern created for a bilinear form has an entry for two degrees of freedom if and only if they meet at a cell, a facet or another entity of one of its integrals; forms that are not bilinear are refused. After finalisation an owned row has a column if and only if the two degrees of freedom meet on some process. Matrices made from it, with blocks or expanded, have every entry that assembly adds to. Creating the matrix, assembling on every process and accumulating the ghost rows never fail, and every owned row then has the sum of the element matrices of all processes.", "quantifier": "all bilinear forms with any number of cell, interior facet and other integrals, meshes and submeshes, block sizes, index maps and numbers of processes", "why_tests_cant": "Tests assemble a few forms on a few meshes; a missing entry shows only for a combination of integral types, spaces and distributions in which nothing else couples the two degrees of freedom.", "anchors": ["cpp/dolfinx/fem/utils.h: create_sparsity_pattern, build_sparsity_pattern", "cpp/dolfinx/fem/sparsitybuild.h: sparsitybuild::cells", "cpp/dolfinx/fem/sparsitybuild.cpp: sparsitybuild::interior_facets", "python/dolfinx/fem/forms.py, python/dolfinx/fem/assemble.py: create_sparsity_pattern, create_matrix, assemble_matrix"]}
{"id": "C77", "title": "The coefficient and constant arrays passed to kernels are the values of the coefficients on the cells of the entities", "statement": "Packing the coefficients of a form gives, for every integral and every entity of it, one row with the values of all coefficients in order: for a coefficient in the integral the values of its degrees of freedom on the cell that belongs to the entity (block by block, transformed to the reference cell), on both cells one after the other for interior facets, and zeros for coefficients that are not in the integral and for cells that do not exist in the mesh of the coefficient. The arrays have the size that assembly demands, and the row that assembly reads for an entity is the row of that entity. Coefficients that are not set and coefficients of lower dimension in cell integrals are refused. Packing over entities given by the caller fills the same slots, leaves everything else as it was and refuses an array that is too small. Packed constants are the constants one after the other.", "quantifier": "all lists of coefficients, block sizes, transformations, integrals, entities, entity maps and constants", "why_tests_cant": "Tests assemble forms with a few coefficients; an offset that is wrong for one place in a list of coefficients with different sizes, or only on the second side of a facet, reads values of another coefficient without any error.", "anchors": ["cpp/dolfinx/fem/pack.h: pack_coefficients, allocate_coefficient_storage, pack_constants, impl::pack_coefficient_entity", "cpp/dolfinx/fem/Form.h: coefficient_offsets, active_coeffs, domain_coeff", "python/dolfinx/fem/assemble.py: pack_coefficients, pack_constants"]}
{"id": "C78", "title": "A sparsity pattern made of a matrix of patterns has the entries of its blocks and no others", "statement": "Stacking a matrix of sparsity patterns (blocks may be missing) of several row and column fields with their own block sizes and distributions gives, on every process, a pattern on the stacked row and column index maps; the entries are exactly those of the blocks: every entry of block (m, n), for owned and for ghost rows and columns, becomes all pairs of components of its row in field m and its column in field n, numbered as the stacked index maps number them. After finalisation, an owned row has exactly the columns that some process inserted for it in a block of its row of blocks. A block that is already finalised is refused.", "quantifier": "all numbers of processes and of fields, index maps with any ghosts, block sizes, and contents of the blocks", "why_tests_cant": "Tests assemble one or two block systems on a few processes; an offset that is wrong only for ghost rows of the second field, or only for a process that owns nothing of a field, shows as a lost or misplaced entry in a matrix for particular partitions.", "anchors": ["cpp/dolfinx/la/SparsityPattern.cpp: SparsityPattern::SparsityPattern (stacked)", "cpp/dolfinx/common/IndexMap.cpp: stack_index_maps", "cpp/dolfinx/fem/petsc.h: create_matrix_block"]}
{"id": "C79", "title": "Refinement numbers and places new vertices consistently on all processes; marked intervals are halved", "statement": "When a mesh is refined, every process learns for each of its marked edges, owned or not, the one global number of the vertex that the owner of the edge creates, and no number for other edges. The numbers of the old vertices (shifted) and of the new ones together are exactly 0 to the new number of vertices, each used once, and the rows of the coordinate array on each process are in the order of its numbers: old vertices stay in place, a new vertex is at the mean of the nodes of its edge (half way for edges with two nodes). Refining an interval mesh refines a cell if any process chose it, replaces it by two cells that meet at the new vertex and keep its end vertices and direction, keeps the other cells, and lists the parent of every new cell.", "quantifier": "all numbers of processes, distributions and ghosts of edges (cells) and vertices, sets of marked edges on which the processes agree, choices of cells on any processes including of ghost cells, coordinates and geometric dimensions", "why_tests_cant": "Tests refine unit meshes on a few processes; a wrong offset shows only for processes without marked edges or without vertices, and a missed exchange only if a process chooses a ghost cell.", "anchors": ["cpp/dolfinx/refinement/utils.h: create_new_vertices, impl::create_new_geometry", "cpp/dolfinx/refinement/interval.h: compute_refinement_data", "cpp/dolfinx/mesh/utils.h: compute_midpoints"]}
{"id": "C80", "title": "Partitioning sends every cell to its destination first and then to the processes of its neighbours", "statement": "Given for each node of a distributed graph whose links go both ways the process it is assigned to, every node is sent first to that process and then, once each and in any order, to exactly the other processes to which the nodes it is linked to are assigned. A mesh refined with the partition of its parent keeps every cell on the process of its parent, which is listed first, and sends it as a ghost to exactly the other processes with a cell that shares a facet.", "quantifier": "all numbers of processes, including processes without nodes, distributed graphs, assignments, orders in which hash sets list their elements, schedules of the consensus exchange and of the threads that build the dual graph; for refined meshes all cells of one type whose parents are owned and whose facets are shared by at most two cells", "why_tests_cant": "Ghost layers are tested on a few processes and meshes; an edge of the graph between nodes of two processes assigned to a third and a fourth is not met there, and a missing ghost only shows when a facet integral is assembled.", "anchors": ["cpp/dolfinx/graph/partitioners.cpp: graph::compute_destination_ranks", "cpp/dolfinx/refinement/refine.h: create_identity_partitioner"]}
{"id": "C81", "title": "Maximum marking marks exactly the indicators above the threshold, however they are distributed", "statement": "mark_maximum returns on every process, in increasing order, exactly the indices of the local indicators that exceed theta times the largest indicator of all processes. If the largest indicator is positive it is marked wherever it occurs. Whether an indicator is marked does not depend on how the indicators are distributed.", "quantifier": "all numbers of processes, including processes without indicators, real indicators and parameters between 0 and 1", "why_tests_cant": "Tests mark a few lists on the processes they are run on; a maximum taken over the local part, or a process without indicators that contributes a wrong start value, only shows for particular distributions and signs.", "anchors": ["cpp/dolfinx/refinement/mark.h: mark_maximum"]}
{"id": "C82", "title": "The Newton solver stops at the first iterate that passes the test and reports it truthfully", "statement": "solve leaves x at the k-th iterate of Newton's method from the initial guess, where k is the first number of steps, at most max_it, after which the convergence test holds, or max_it if there is none; it returns k and whether the test holds, or throws if it does not hold and errors are requested. The residual vector is that of the returned x, and the number of linear iterations is the sum over the k solves. With the default functions each step subtracts the relaxed solution of the linear system, and the test compares the norm of the residual (or, from the second step on, of the increment) with atol and its quotient by the norm of the first increment with rtol. If one step solves the equations up to atol, at most one step is made.", "quantifier": "all residual, Jacobian, preconditioner, update, linear solver and convergence functions, initial guesses, settings including negative numbers of iterations, and all arithmetics, including rounded ones", "why_tests_cant": "Tests solve a few problems that converge; the outcomes for a limit reached exactly when the test passes, for exact initial guesses and for callbacks that read the state are not met.", "anchors": ["cpp/dolfinx/nls/NewtonSolver.cpp: NewtonSolver::solve, converged, update_solution", "cpp/dolfinx/nls/NewtonSolver.h: NewtonSolver"]}
{"id": "C83", "title": "Dof coordinates are the points of the dofs, and dofs are located exactly where they are", "statement": "tabulate_dof_coordinates returns, in rows of three or transposed, for each dof the coordinates of its interpolation point in the cells that have it, padded with zeros. locate_dofs_geometrical for one space returns in increasing order exactly the dofs whose points satisfy a pointwise marker. For a pair of spaces it returns, sorted and without repetition, exactly the pairs of unrolled dofs that are at the same position of a cell and belong to a dof of the second space that is marked.", "quantifier": "all meshes with several cell types, coordinate elements, dof maps and block sizes whose arrays fit, elements with point evaluations, markers, geometric dimensions up to three and arithmetics", "why_tests_cant": "Tests locate the dofs of a boundary of a unit square for a few elements; wrong strides for the transposed layout, blocks, cell types or unrolled pairs give wrong boundary conditions only for particular combinations.", "anchors": ["cpp/dolfinx/fem/FunctionSpace.h: FunctionSpace::tabulate_dof_coordinates", "cpp/dolfinx/fem/DirichletBC.h: locate_dofs_geometrical"]}
{"id": "C84", "title": "The interpolation matrix interpolates", "statement": "With the values added, each owned row of the matrix from interpolation_matrix times the coefficients of any function of the first space is the dof of the interpolation of that function into the second space in the first cell that has the dof (in any cell, if the cells agree); no row is added twice, and rows that are not owned, or in no cell, are zero.", "quantifier": "all elements with any block sizes, numbers of points and interpolation operators, linear maps to the reference cell and linear dof transformations of each cell, dof maps with any block sizes, numbers of owned and ghost rows, coefficient vectors and rings of numbers", "why_tests_cant": "Tests compare one smooth function for a few pairs of spaces; that every shared row is added exactly once, for every numbering, with ghosts and with different block sizes, is a statement about all dof maps.", "anchors": ["cpp/dolfinx/fem/discreteoperators.h: interpolation_matrix"]}
{"id": "C85", "title": "The discrete gradient and curl matrices interpolate the gradient and the curl", "statement": "With the values set, each row of the matrix from discrete_gradient (discrete_curl) times the coefficients of any function of the first space is the dof of the interpolation of its gradient (curl) in every cell that has the dof, if the cells agree on these dofs.", "quantifier": "all numbers of basis functions, points and cells, derivative tables, interpolation operators, dof maps without repetition in a cell, dof transformations of each cell, coefficient vectors and rings of numbers", "why_tests_cant": "Tests apply the matrix to a few functions on small meshes; that setting the entries cell by cell gives the operator for every function depends on the agreement of all cells that share a dof.", "anchors": ["cpp/dolfinx/fem/discreteoperators.h: discrete_gradient, discrete_curl"]}
{"id": "C86", "title": "Meshes and tags read from an XDMF file are those that were written", "statement": "A mesh that any number of processes write to an XDMF file with HDF5 data is read by any other number of processes: every owned cell is in the file, in the order of the processes, with its nodes in their original order, and each of its nodes has the coordinates that the writing process has for it. Likewise the rows read for mesh tags are the nodes of the closure of the owned tagged entities with their values.", "quantifier": "all numbers of writing and reading processes, orders in which they write, previous contents of the data sets, cell types and degrees with at most 65536 nodes, geometries with ghost nodes that agree with their owners, cells and sorted tags", "why_tests_cant": "Tests write and read small meshes with the same number of processes; offsets, node permutations and ghost indices must fit for every partition, every degree and every number of readers.", "anchors": ["cpp/dolfinx/io/xdmf_mesh.cpp: add_topology_data, add_geometry_data, read_topology_data, read_geometry_data", "cpp/dolfinx/io/xdmf_mesh.h: add_meshtags", "cpp/dolfinx/io/xdmf_utils.h: add_data_item, get_dataset"]}
{"id": "C87", "title": "The values of functions in XDMF files", "statement": "write_function writes one row for each node of the mesh (or each cell, for functions with one dof in each cell), in the global order of the nodes (cells): the components of the function at the dof of that node (cell), followed by zeros up to three components for vectors and nine for tensors.", "quantifier": "all numbers of processes, orders of writing, block sizes, ranks of values, dof maps whose cells agree on the dof of a shared node, coefficient vectors", "why_tests_cant": "Files are usually looked at in a viewer; that each row of the file is the value at the node in the same row of the geometry, for any partition and numbering of dofs, is a statement about all dof maps.", "anchors": ["cpp/dolfinx/io/xdmf_function.cpp: add_function"]}
{"id": "C88", "title": "Expressions are evaluated and interpolated at the right points of the right cells", "statement": "tabulate_expression sets the values of each entity of the list to what the kernel computes from zero with the coefficients of that entry of the list, the constants, the coordinates of the nodes of its cell and (for facets) the local facet, whatever the array held before, and changes nothing else. Interpolating an expression gives the dofs of the i-th cell of cells1 the values (or the moments of the values) of the expression in the i-th cell of cells0 and keeps all other dofs. Expressions that do not match the function are rejected.", "quantifier": "all kernels, meshes, dof maps, lists of cells or facets (with repetitions, in any order), numbers of points and components, block sizes, elements with point evaluations or interpolation operators and the identity map, symmetric or not", "why_tests_cant": "Tests interpolate a few smooth expressions on all cells in order; a wrong stride, a row of coefficients taken by cell instead of by position, or a wrong transposition shows only for other lists of cells, numbers of points and numbers of components.", "anchors": ["cpp/dolfinx/fem/assemble_expression_impl.h: tabulate_expression", "cpp/dolfinx/fem/assembler.h: tabulate_expression", "cpp/dolfinx/fem/Function.h: Function::interpolate(Expression)"]}
{"id": "C89", "title": "Inclusion of function spaces, and the spaces of block systems", "statement": "Of the function spaces made in any history of new spaces and (nested) subspaces, V.contains(W) holds iff both are parts of the same space and the components of W continue those of V. For a rectangular array of forms, common_function_spaces returns test spaces of the rows and trial spaces of the columns iff all forms of a row share the test space, all forms of a column share the trial space and no row or column is empty, and then it returns those.", "quantifier": "all histories of spaces and subspaces, all pairs of them, all arrays of pairs of spaces with any number of null entries", "why_tests_cant": "Tests use two-by-two blocks and one level of subspaces; which forms decide the space of a row depends on where the null blocks are.", "anchors": ["cpp/dolfinx/fem/FunctionSpace.h: FunctionSpace::sub, FunctionSpace::contains, common_function_spaces"]}
{"id": "C90", "title": "A mixed mesh in a VTKHDF file is read as it was written", "statement": "A mesh whose ghost cells, if any, are all of its last cell type, and whose cells are Lagrange cells (of degree 1 for prisms and pyramids), is written by io::VTKHDF::write_mesh so that, on any number of processes, read_mesh finds exactly the cell types and degrees of the mesh, each once, the same on all processes; for each of them the processes together read the owned cells of that type in the order of the writing processes, each with its nodes in the order it had, by global index; and together they read the owned points in the order of their global indices.", "quantifier": "all numbers of writing and of reading processes, orders in which the processes write, lists of different cell types with any degrees, distributions of cells and nodes (also processes without cells of some types or any cells), geometric dimensions up to 3", "why_tests_cant": "Tests write a few unit meshes and read them on the same number of processes; positions of cells, nodes and offsets depend on how many cells of each type every process has, and on all degrees through the node permutations.", "anchors": ["cpp/dolfinx/io/VTKHDF.h: write_mesh, read_mesh", "cpp/dolfinx/io/cells.cpp: get_vtk_cell_type", "cpp/dolfinx/io/cells.h: vtk_to_dolfinx"]}
{"id": "C91", "title": "Time steps in a VTKHDF file keep the data of every step", "statement": "After any number of calls of io::VTKHDF::write_data for points (or for cells) with data of the same width, on processes that all own some, the file has the number of steps and the times in the order of the calls, and for each step an offset from which on the rows are the data of all processes at that step, in the order of the processes.", "quantifier": "all numbers of processes, steps and components, orders of writing at each step, times and data", "why_tests_cant": "Tests write one or two steps; that no later step overwrites an earlier one, for any distribution and order of writing, is a statement about all histories.", "anchors": ["cpp/dolfinx/io/VTKHDF.h: write_data"]}
{"id": "C92", "title": "VTX files hold the points, cells and values of what is written", "statement": "For a Lagrange space that is not mixed and whose cells agree on the points of shared dofs, the VTX writer makes one point for each local dof with the coordinates of the dof (zero beyond the geometric dimension and for dofs of no cell), its global index and a flag that is set exactly for ghosts, and for each cell its number of nodes followed by its dofs in VTK order. For a mesh it makes the same cells from the geometry dof map. The values of a function are, for each point in that order, those of the block of the dof, followed by zeros up to 1, 3 or 9 components.", "quantifier": "all cell types and degrees of Lagrange nodes up to 65536 nodes, geometric dimensions up to 3, numbers of cells, owned dofs and ghosts, block sizes, value shapes with at least as many components as the block size, coordinates and values", "why_tests_cant": "Tests check that writing does not fail, the number of steps and the names of arrays, not the points, cells and values in the files; the placement of nodes depends on the node permutation of every degree and on shared and ghost dofs.", "anchors": ["cpp/dolfinx/io/vtk_utils.h: vtk_mesh_from_space, tabulate_lagrange_dof_coordinates", "cpp/dolfinx/io/vtk_utils.cpp: extract_vtk_connectivity", "cpp/dolfinx/io/ADIOS2Writers.h: vtx_write_data, vtx_write_mesh, vtx_write_mesh_from_space"]}
{"id": "C93", "title": "VTK files hold the values of functions at the points and cells they belong to", "statement": "For each function written by io::VTKFile::write, the values at a point of the file are those that the function has at that node of each cell with the point, followed by zeros up to 1, 3 or 9 components, also if the function is in a space with another numbering of dofs than the space from which the points are made; the values of a cell, for functions constant on cells, are those of the dof of the cell.", "quantifier": "all numbers of cells and dofs, dof maps of the two spaces that share the same nodes, block sizes and value shapes, geometric dimensions and values", "why_tests_cant": "Tests check that files can be written and compare node permutations, but do not read values back; whether values reach the right points depends on the pair of dof maps, the dimension of the mesh and the value shape together.", "anchors": ["cpp/dolfinx/io/VTKFile.cpp: write_function"]}
{"id": "C94", "title": "Tables hold the values set last and are reduced over all processes", "statement": "An entry of a Table is the value set last for its row and column. On two or more processes, if no name of a row or column has a null character, Table::reduce gives the first process, for each entry that has floating point values on some processes, exactly these values combined in the order of the processes: the smallest or largest of them, or for averages their sum divided by the number of processes; for other entries the integer of the first process, if it has one. Other processes get an empty table.", "quantifier": "all histories of set on any number of processes (two or more for reduce), entries present on any of the processes, names without null characters, numbers", "why_tests_cant": "Tests only call list_timings once without checking its output; that names and values sent as one string and one array are matched again holds or fails for all names, numbers of entries and processes.", "anchors": ["cpp/dolfinx/common/Table.cpp: set, get, reduce"]}
{"id": "C95", "title": "Timings count and sum what was registered and can be listed", "statement": "The timing of a task is the number of times registered for it and their sum, and there is none for a task without times. The table of timings of a process has a row for exactly these tasks, with the number, the sum divided by it, and the sum. Listing the timings succeeds on any number of processes, whatever tasks each of them has timed.", "quantifier": "all histories of registered times on every process, numbers of processes, kinds of reduction, names without null characters", "why_tests_cant": "Tests list timings once, after all processes have timed the same tasks; failures depend on which process has timed what.", "anchors": ["cpp/dolfinx/common/TimeLogger.cpp: register_timing, timing, timing_table, list_timings", "cpp/dolfinx/common/Table.cpp: str, reduce"]}
{"id": "C96", "title": "The communication graph shows what each process sends to which", "statement": "On the root that the caller asks for, the communication graph of an index map has, for each process, one edge to every process that ghosts any of its indices, in increasing order, with the number of these indices as weight and a marker that is 1 exactly if both share memory. Its node data are the numbers of owned and ghost indices, and the weights of the edges into a process add up to its number of ghosts. Other processes get a graph without edges. The lists made from the graph have the same edges and nodes.", "quantifier": "all consistent index maps, numbers of processes, roots and distributions of processes over shared-memory nodes", "why_tests_cant": "The only test checks that building the graph on the default root does not throw; the edges depend on how indices are shared and on how processes are placed on nodes.", "anchors": ["cpp/dolfinx/graph/utils.cpp: comm_graph", "cpp/dolfinx/common/IndexMap.cpp: weights_dest, rank_type", "python/dolfinx/graph.py: comm_graph", "python/dolfinx/wrappers/graph.cpp: comm_graph_data"]}
