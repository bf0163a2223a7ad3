# Formal model of DOLFINx in Rocq (Coq 8.16.1)

## 1. Approach

The C++ core of DOLFINx (`/repo/cpp/dolfinx`) is modelled as total, computable
Gallina functions that follow the C++ branch by branch.  The code is only read as
text; nothing is executed.  Every definition of a `*Model.v`/model section cites the
file and lines it models and states its simplifications.

* **Exceptions and undefined behaviour are values.** A C++ `throw` becomes `None` /
  `Err`; an out-of-bounds access of a vector becomes an error value (never a
  default), so that theorems of the form `f x = Some y` also say "no out-of-bounds".
* **Integers.** Mathematical `Z`/`nat` unless the property concerns a width; then the
  wrap (`mod 2^w`) is written in the model (radix sort counters, unsigned projection,
  truncation of 64-bit vertex numbers, packed permutation bits).
* **Floating point scalars** are replaced by an arbitrary commutative ring (linear
  algebra, assembly).  Geometry is stated for any arithmetic with a total order and
  monotone operations; exact integers, exact reals and IEEE double rounding (Flocq,
  without overflow) are shown to be instances.
* **MPI.** An SPMD program is a *world*: a quantity per rank is a function of the rank, with P ranks.
  A (neighbourhood) collective is a function from the list of send buffers to the
  list of receive buffers following the MPI standard (block k of the receive buffer
  of rank r is what the k-th in-neighbour sent to r).  A C++ function containing
  collectives is modelled as local steps separated by these world-level exchanges.
  The consensus protocols (NBX, PCX), where the schedule matters, are transition
  systems whose steps are individual sends, matches, acknowledgements and barrier
  events; theorems quantify over all reachable states.  Matching of collective
  calls is treated through per-rank traces of collective calls.
* **Unspecified library choices** (order of `std::sort` on equal keys,
  `nth_element` pivots, hash map order) are modelled nondeterministically or as an
  arbitrary function satisfying the library specification, so the theorem holds for
  every standard library.

### Layout

For an area `X`: `X.v` holds the model only, `XSpec.v` (where useful) the small
independent specification, `XProofs.v` lemmas, and `PropX.v` the property theorems,
each closed by `exact ...` with `Print Assumptions` beneath and `Example`s showing
that the hypotheses are met by concrete non-trivial data.

A theorem ending in `_partial` proves part of a property; one ending in `_refuted`
exhibits a witness that the code, as modelled, violates the property.

## 2. Trusted base

* Coq 8.16.1's kernel (including `vm_compute`), standard library.
* Axioms of Coq's standard library only, for the few theorems listed in section 4; the
  output of `Print Assumptions` for every other property theorem is "Closed under the
  global context".
* The reading of the C++ text (model comments cite it), the MPI standard semantics of
  the collectives used, and the C++ standard library's specification of algorithms.
* Not modelled: floating point rounding, memory allocation, performance, template
  overload resolution, the Python bindings, PETSc, ADIOS2/HDF5 I/O, FFCx-generated
  kernels (kernels are arbitrary functions), Basix tabulation, ParMETIS/SCOTCH/KaHIP
  partitioners, GJK.

## 3. Plan per property

* **C01 AdjacencyList construction and links.** Model of the class as (array, offsets); constructors returning option; law: links of built list = input list; iff-characterisation of the error branches.
* **C02 Transposed connectivity is the exact inverse relation.** Model the counting/prefix-sum/fill loops with mutable offset vector; prove each link list equals the filtered list of sources (count and order) by loop invariants.
* **C03 radix_sort is a stable sort.** Model passes, histogram, prefix sums with counters mod 2^w and double buffer; prove each pass is a stable counting sort, then digit induction. Refute without the length bound.
* **C04 sort_by_perm returns the lexicographic permutation.** Right-to-left composition of stable passes; lexicographic order by induction on columns.
* **C05 sort_unique returns each index once with a value it had.** Model with sort (specification: any sorted permutation of pairs) and unique; set equality and minimal value.
* **C06 local_range partitions and index_owner inverts it.** Integer division arithmetic over Z; unbounded N, P.
* **C07 Non-blocking consensus finds exactly the in-neighbours under every schedule.** Transition system: ranks with pending sends, network of unacknowledged messages, barrier phase; invariant relating acked messages and barrier state; every terminal state has received = in-edges; progress lemma.
* **C08 Personalised census finds exactly the in-neighbours.** reduce_scatter count + nondeterministic receive order.
* **C09 distribute_data returns the requested rows.** World model of the two post-office exchanges; refinement to global array lookup.
* **C10 IndexMap ranges partition the global index set.** Exscan/allreduce model; list sums.
* **C11 local_to_global and global_to_local are mutually inverse.** Model both functions with offset arithmetic and ghost lookup table; round trip.
* **C12 IndexMap neighbour ranks are sorted, complete and symmetric.** World model of build_src_dest with the NBX result specified by C07; set equalities.
* **C13 index_to_dest_ranks and shared_indices report exactly who sees an index.** World model of the exchanges; sets of ghosting ranks.
* **C14 compute_owned_indices gathers indices marked on any rank.** World model of communicate_ghosts_to_owners and merge; set equality, sortedness.
* **C15 create_sub_index_map yields a consistent sub map.** World model of ownership transfer; consistency of renumbering.
* **C16 stack_index_maps numbers the concatenation consistently.** World model with process offsets; equality with owner's number.
* **C17 Forward scatter copies owner values to all ghosts.** World model of Scatterer construction (permutations, neighbour order, sizes, displacements) and pack/exchange/unpack.
* **C18 Reverse scatter accumulates all ghost contributions exactly once.** Same world model, reverse direction; sum over ranks and ghost positions in an arbitrary commutative ring.
* **C19 Forward and reverse scatter are adjoint.** Corollary of C17 and C18 by exchange of finite sums.
* **C20 Inner products and norms do not depend on the partition.** Sum over ranks of local sums equals sum over the concatenated vector.
* **C21 orthonormalize produces an orthonormal basis.** Gram-Schmidt over an abstract field with involution; orthogonality for trivial involution; refutation with Gaussian rationals.
* **C22 SparsityPattern contains exactly the inserted entries.** State machine of insertions; finalize as world function; set equality with the relation of inserted pairs.
* **C23 MatrixCSR insertion agrees with dense accumulation.** Model of insert_csr etc. with lower_bound; dense view refinement for add/set, error for missing entries.
* **C24 MatrixCSR::scatter_rev moves ghost rows to their owners.** World model with position tables computed in the constructor.
* **C25 Matrix-vector product equals the dense product.** spmv model with nested loops; equality with dense sum in any commutative ring.
* **C26 Transposed product equals the dense transposed product.** spmvT model; equality with dense transposed sum.
* **C27 matmul computes the matrix product.** Row accumulator model; equality with the product entries, zeros dropped, sorted columns.
* **C28 transpose computes the transposed matrix and is an involution.** Counting transpose as C02 with values; entry equality and involution.
* **C29 Collective calls are matched on every rank.** Trace of collectives per rank as a function of neighbourhood emptiness; equal traces theorem for index map/scatterer; refutation for the fast path.
* **C30 Degree-of-freedom renumbering is a bijection with owned dofs first.** Model of the visiting order loop; bijection by invariant on assigned numbers.
* **C31 Cells sharing a mesh entity share its dofs.** Offset arithmetic of entity-dof numbering; injectivity.
* **C32 Global dof numbering is consistent across ranks.** World model of exchange; equality with owner's number.
* **C33 Real (global constant) element has one global dof per value.** World model over any number of ranks.
* **C34 Sub-dofmap extraction and sub-layout selection address the right dofs.** Layout tree model; composition of sub-maps; refutation for nested paths where the code reads the wrong level.
* **C35 Entity numbering identifies equal vertex sets.** Sorted-key matching model with thread ranges; equality classes.
* **C36 Entity vertex order does not depend on the cell.** Sorting network as function; invariance under permutations (finite symmetric group, all integer values).
* **C37 Entity reflections and rotations are consistent across cells and ranks.** Functions on triples/quadruples of integers; equivariance for all values; truncation to 32 bits explicit and refuted beyond; bit-field packing lemma.
* **C38 A shared entity has exactly one owner, agreed by all sharers.** Ownership as function of sorted sharing set and vertex key; agreement.
* **C39 Reverse Cuthill-McKee returns a permutation.** Model of BFS level structure with fuel-free measure; permutation for symmetric graphs; refutation for asymmetric graphs.
* **C40 Point queries on bounding-box trees return exactly the colliding leaves.** Tree as array of nodes built bottom up for arbitrary split; box containment invariant; exactness of traversal.
* **C41 Tree-tree collisions return exactly the intersecting leaf pairs.** Double recursion with measure; exactness.
* **C42 Closest-entity search returns a minimiser.** Branch and bound invariant.
* **C43 Point-cloud trees bound their points.** Witness that the lexicographic min/max box misses a point.
* **C44 DirichletBC sets exactly its dofs.** Vector update model with skip of out-of-range dofs.
* **C45 Matrix assembly with boundary conditions zeroes constrained rows and columns only.** Assembly into a dense accumulator; zero rows and columns; sum of contributions.
* **C46 Lifting, assembly and set_bc together solve the constrained problem.** Matrix algebra over a commutative ring.
* **C47 Assembly is the sum of element contributions, independent of order.** Sum over multiset of contributions; permutation invariance.
* **C48 Dofs located on a facet set are found on all ranks.** World model of get_remote_dofs.
* **C49 EntityMap translations are mutually inverse.** List lookup model; round trip.
* **C50 MeshTags lookups and construction are consistent.** Filter specification; create_meshtags via vertex list matching.
* **C51 Cell type tables are mutually consistent.** Finite tables, exhaustive over the (finite) domain.
* **C52 VTK node permutations are permutations for every degree.** The loops that pop positions from a list of remaining nodes keep (moved ++ remaining) a permutation; what is left to prove is that every popped position is inside the list, which is an inequality between polynomials in the degree and the loop counters, for every degree. Blocks of nodes and triangular arrays by columns or antidiagonals are permutations of intervals. transpose inverts, apply_permutation round-trips.
* **C53 Plaza refinement subdivides a simplex exactly and conformingly.** For tetrahedra: for every choice of longest edges that comes from an order of the edges and every closed marking, the children are the ones of successive bisection (a finite check over all 51 choices and 64 markings, by computation); bisection tiles a simplex for every position of the vertices (proved over R by weights, induction on the number of bisections). Red refinement of triangles is proved directly. Facets: finite check against a description by names, then two cells. Longest edges come from one order: proved for any strict weak order of lengths.
* **C54 Edge marking closure terminates in the least closed marking, consistent across ranks.** Chaotic iteration over world; least fixed point.
* **C55 Mesh tags are inherited by children in refinement.** Counting/grouping model (as C02) plus stable sort (C03).
* **C56 Inserting new vertices keeps global numbers unique and consistent.** Exscan arithmetic; injectivity.

* **C57 Frobenius norm.** Sum over owned rows on all ranks equals the sum over the global matrix.
* **C58 Tree of all processes.** Composition of C40 with the list of root boxes.
* **C59 Entities of the integrals of a form.** Loops of create_form over forms and ids with their arrays; characterised by the set of owned entities.
* **C60 Dual graph.** Model of the facet storage by threads, the matching, the post office exchange and the merge; characterised by the relation "has a facet with the same vertices".
* **C61 Distribution of nodes.** Grouping by destination, exchange and unpacking of integer messages; compared with the set of (rank, node) pairs that have the rank as destination.
* **C62 Ghost numbers and local maps.** The exchange of ghosts with their owners and back, for lookup by sorted array or hash map; compared with the position of the index on its owner. Local maps: invariant of the filling loop; sorted lookup and the shortcut for contiguous indices compared with the position of the global index.
* **C63 Cells and coordinates of a mesh.** Composes the distribution of cells (C61), reordering as writes along a permutation, distribution of coordinates (C09) and the local maps (C62) with the loop of create_geometry; compared with the input cell and input coordinates of the same original number.
* **C64 Topology from distributed cells.** determine_sharing_ranks (post offices, random owner), vertex_ownership_groups, numbering of owned vertices, exchange_indexing, exchange_ghost_indexing and convert_to_local_indexing are modelled as in the code, with the index maps of C05 and the ghost numbers of C62. Proof: post office groups are the ranks that hold an index; owned/unowned vertices are characterised by one owner function; the state after each received triple is a function of the list of ghosts numbered so far; the final maps are consistent by the theorem on index maps.
* **C65 Boundary vertices and reordered cells.** create_boundary_vertices_fn is modelled as in the code, with build_local_dual_graph of C60 for each cell type, the radix sort by columns of C03, and the comparison of padded facets. The specification (BoundarySpec.v) speaks of facets of owned cells as lists of vertices and of cells connected through facets with a vertex. C65_single and C65_several give the boundary vertices exactly; C65_topology joins all ranks with create_topology of C64: on a path from a cell of one rank to a cell of another, around the vertex, some facet leaves the rank, and its vertices are on the boundary. C65_pinched_refuted, C65_joint_refuted and C65_part_refuted show that the conditions are needed.
* **C66 Sub-meshes.** create_subtopology, compute_incident_entities, entities_to_geometry and create_subgeometry are modelled on top of create_sub_index_map (C15). The specification (SubMeshSpec.v) says what a numbering of chosen indices is (each chosen index once, one number per global index, owners), that rows are kept up to renumbering, and which geometry dofs an entity has. The proof applies C15 three times (entities, vertices, geometry dofs) and shows that the parent-to-sub arrays invert the sub-to-parent lists. The cells shared by two ranks are compared through the parent's global numbers.
* **C67 Tags of a sub-mesh.** transfer_meshtags_to_submesh is modelled with its early returns. The specification (TagTransferSpec.v) says when an entity of the sub-mesh and one of the parent have the same vertices, and what it means that a mesh is a sub-mesh of the parent. The search finds the entity with the same vertices if there is one; the loop over tags is proved by induction.
* **C68 (ownership of points).** Model `determine_point_ownership` over any results of the bounding box trees and any distance function; packing with offsets, sparse exchange, answers sent back, second round for points in no cell. Every message is a concatenation of blocks, each block a list of the points with that rank; loops of keyed updates are folds over the values of one key; a strict comparison keeps the first minimum.
* **C69 (data on entities).** Model `distribute_entity_data` with its two post-office rounds and the selection at the end, over any sparse-exchange order and any sort of the entities by destination. Each exchange is a concatenation of blocks; what arrives is a permutation of the inputs with the first vertex on the process, since every node has one post office. The specification lists the vertex nodes of an entity in the order of the layout and relates nodes and vertices through the cells only.
* **C70 (generated meshes).** Model create_box, create_rectangle and create_interval up to the call of create_mesh, with real coordinates. The specification says what a tiling of a box is, for any kind of cell that has weights for its vertices. Scaling reduces it to the unit grid; there each vertex has a hat function, a relation between points and values that every cell containing the point satisfies with its weight, so two cells at a point have the same weights. Covering reduces to one cube or square, which is a case distinction on the order of the coordinates. For tetrahedra the cells of a cube are the six orders of the coordinates; for triangles every square has its own kind of division.
* **C71 (geometry maps).** Model math.h and the maps of CoordinateElement with real numbers. The specification has sums, products, determinants by expansion along the first row and linear independence. The inverses are field identities; that the Gram determinant of independent columns is not zero is shown by sums of squares of minors. Pull-backs follow from the left inverse and the normal equations. Newton's method: the last step solves the linearised equation and is shorter than the tolerance.
* **C72 (uniform refinement).** Model uniform_refine with its tables. The specification says when a list of cells with vertices in the middles of entities divides a cell: covering in both directions for all positions of the vertices, and matching weights where two children meet. Each table is checked through piecewise linear weights: the weight of a new vertex in a point is a function of the weights of the point, and a child is where these functions are linear. Quadrilaterals, hexahedra and prisms are products. Common facets: for each pair of facet types every gluing is a symmetry of the facet, and the pieces of a facet are the same under all symmetries, by computation. The distributed part: numbers are positions in the list of all owned entities, ordered by rank and dimension; the exchange is the forward scatter of C17.
* **C73 (distances of bodies).** Model gjk.h over the reals. The specification has bodies as sets of convex combinations and says what a closest point is. The closest point of independent points exists: the foot of the perpendicular, or a point of a face, since moving towards the foot shortens the vector until a weight vanishes; it is characterised by its products with the points. Each test of the code that passes gives these inequalities; if none passes, the closest point is in the interior, where the weights are unique. Invariant of the loop: the points kept are independent and have equal products with the current point, which has positive weights; the next support point is independent of them, the length decreases strictly, and four points are only kept if the point is the origin.
* **C74 (interpolation and evaluation on one mesh).** Model the loops of interpolate.h for point evaluation elements, other identity-mapped elements, copies between equal elements and matrices between elements with the same map, and of Function::eval with the values of the basis functions as an argument. Each loop is shown to be a list of writes (place, value) or of additions; the last write to a place decides. The places are those of an independent definition of the degrees of freedom of a cell, the values those of sums over points or coefficients; symmetric matrices by the place of an entry in the lower triangle. The round trip follows for basis functions that are one at their own point and zero at the others, if cells agree on what they share.
* **C75 (interpolation between meshes).** Model interpolation_coords, create_interpolation_data, scatter_values and interpolate on top of the models of C68 (owners of points) and C74 (evaluation, local interpolation), for any number of processes. scatter_values: the send sizes by an invariant about the moving start of the search, the receive order by simulating the fill loop with the bucket lemma, the values by the lemma about neighbourhood exchange; together entry i of a process gets the row its owner computed for it. Then the C68 theorem says which point and cell that row belongs to.
* **C76 (pattern of a form).** Model sparsitybuild and build_sparsity_pattern on the forms of C47 and the patterns of C22. An invariant of nested loops (a pattern grows by exactly the pairs of the entities visited) gives the pattern; the same walk over the blocks of C47 shows that all pairs of a block are in it. With the theorems about finalisation (C22), creation of matrices (C23, C24), assembly (C47) and accumulation of ghost rows (C24), a lemma that the share of a block with global dofs is the share of the block with local dofs gives the distributed matrix.
* **C77 (packed coefficients).** Model pack.h and the accessors of Form.h. A lemma about sequences of writes of cell values into slots of rows (the value of every place of the array after all of them) is used three times: with one slot for each coefficient, with two for interior facets, and with the contents of the caller's array. The keys of the integrals are consecutive numbers, which gives what the accessors find.
* **C78 (stacked patterns).** Model the second constructor of SparsityPattern. The stacked numbering of C16 gives the local number of every component in the new maps, for owned and ghost indices; buckets by row are a permutation of the cache; the cache of the result is the concatenation of the blocks. The theorem about the finalised pattern composes this with C22 and uses that stacked numbers are distinct.
* **C79 (new vertices).** Model create_new_vertices, create_new_geometry, compute_midpoints and the refinement of intervals. The edges and numbers of a rank, its own and those received through the exchange of Marking.v, are a permutation of the marked local edges with one number each, so sorting them gives an adjacency list whose rows are known; the numbering is shown to be a bijection with the prefix sums of the new sizes. Intervals reuse the exchange of marks of C54 and adjust_indices (C56). Coordinates: loops with invariants over the vertices visited and the nodes summed.
* **C80 (destinations).** Model compute_destination_ranks and the identity partitioner. What a rank sends is a set of (rank of the neighbour, neighbour, destination), what it receives the pairs whose node it owns; with links both ways every rank has as many sources as destinations, so the receive buffer is large enough. Rows are the buckets of the sorted set (fill_links, C60), followed by a swap. The identity partitioner is the composition with the theorem on the dual graph (C60_dual_graph).
* **C81 (marking).** Model mark_maximum with real numbers; the maximum of a process without indicators is the lowest number. Folds of maxima give an element that bounds all others; if it is the start value of an empty process, it equals an indicator.
* **C82 (Newton's method).** Model NewtonSolver::solve over abstract numbers, vectors, matrices and callbacks. The specification describes sequences of iterates, increments and tests by their recurrences; the states of the loop are shown to be the terms of these sequences, and the loop to stop at the first index with a passed test. The default functions are an instance.
* **C83 (dof coordinates).** Model tabulate_dof_coordinates over any number type and both versions of locate_dofs_geometrical. The coordinates are a sequence of array writes; the last write at a position is that of a point of the dof, and all of them agree. The marked dofs are the indices of a filtered enumeration; the pairs are collected over the cells.
* **C84, C85 (discrete operators).** Model interpolation_matrix, discrete_gradient and discrete_curl over any ring, as the list of entries that the functor gets. The columns of the local matrix are the interpolations of unit vectors; interpolation is linear, so the matrix times a vector is the interpolation of the vector. For added entries an invariant over the cells: the marked rows are those of the cells so far, and the sum over the entries of an owned row is the dof in the first cell. For set entries all entries at a position agree.
* **C86, C87 (XDMF files).** Model a data set as the list of its values; the processes write their rows in any order over any previous contents, and the result is the concatenation of their data, because the offsets are the numbers of rows before. Reading takes the rows of local_range, whose concatenation is the data set. The permutation of the nodes for VTK and its transpose are inverse (C52), so the rows read are the rows of the geometry dof map with global indices. Ghost nodes have the coordinates of their owner. For functions an invariant over the cells: the row of each node seen so far has the values of its dof.
* **C88 (expressions).** Model tabulate_expression with an arbitrary kernel, for cells and facets, the checks of Function::interpolate, and the change from (cell, point, component) to (component, cell, point). Prove by an invariant over the entities that each row is set and nothing else, that the transposition is a bijection of places, and combine with the theorems of C74 on interpolation from point values.
* **C89 (relations of function spaces).** Model spaces as address, root id and components and prove by induction over histories that they describe the path from the root; model common_function_spaces as a loop over all blocks with the invariant that an entry is set iff a block seen so far sets it, and that a consistent assignment never fails.
* **C90 (VTKHDF meshes).** Model write_mesh as four data sets written in parts by all processes and read_mesh with its reduction of cell kinds, over the model of parallel data sets of C86. Prove that the file holds the concatenation over processes and types of the cells in VTK order with the running sums of their sizes, that a reader's range of offsets selects its cells, that the permutations cancel (C52), and that sorting by kind keeps the order.
* **C91 (VTKHDF time steps).** Model write_data as a step that extends data sets, and prove by induction over the history that the file is the concatenation of the steps.
* **C92 (VTX files).** Model the functions that make points, indices, ghost flags, cells and padded values. Prove each array pointwise, from the lemmas on dof coordinates (C83) and on the VTK node permutations (C10).
* **C93 (values in VTK files).** Model the loops that fill cell data, reorder values to the first space and pad them. Prove by induction over the copied blocks that each row holds the block last copied to it, and that blocks copied to the same row are equal if the spaces share nodes. Refute the two remaining cases by witnesses.
* **C94 (tables).** Model the map of values, the string of keys with its end characters and its parsing, and the loop that takes values from the gathered array. Prove that parsing inverts packing for names without end characters, by induction that the loop combines the values of each key in the order of processes, and from the history that keys are different.
* **C95 (timings).** Model the map of timings, the table made from it and the look-up of all entries by str(). Prove counts and sums by induction over the history, and from the entries of reduced tables (C94) exactly when one is missing. The entries of the table of one process follow by induction over the list of tasks, which has each name once.
* **C96 (communication graph).** Model the split by shared memory, the markers, the gathers on the root, the graph and the lists made from it, and the Python function. Prove with C13's weights and the uniqueness of owners that the rows list what is ghosted, and by a merge lemma that intersections of sorted lists are filters. Sum over ranks that each ghost has one owner to get the totals.

## 4. Axioms used

No axiom is added.  `Print Assumptions` follows every property theorem.  All are closed
under the global context except those that mention the real numbers, which rest on the
axioms of the standard library's reals
(`ClassicalDedekindReals.sig_forall_dec`, `ClassicalDedekindReals.sig_not_dec`,
`FunctionalExtensionality.functional_extensionality_dep`):

* `sig_forall_dec` and `functional_extensionality_dep`: `C42_exact`, `C53_subdivision`,
  `C53_cell`, `C53_cyclic_refuted`, `C70_box`, `C70_box_others`, `C70_triangles`,
  `C70_quadrilaterals`, `C70_interval`, `C70_prism_subcomm_refuted`,
  `C70_point_order_refuted`, `C71_inverse`, `C71_simplex`, `C71_push_forward`,
  `C72_divides`, `C72_pyramid_refuted`, `C73_nearest`,
  `C73_uninitialised_refuted`, `C79_coordinates`, `C79_midpoint`,
  `C81_marked`, `C81_largest_marked`, `C81_distribution`, `C81_documented_refuted`
* also `sig_not_dec`: `C21_orthonormalize_real_partial`, `C71_determinant`, `C71_newton`,
  `C71_newton_affine`, `C73_distance`, `C73_distances`, `C73_tie_refuted`

The example `ex_arith_double` (rounded arithmetic) also uses `Classical_Prop.classic`
through Flocq.  Other names that a scan of the loaded libraries prints
(`Coq.ssr.ssrunder.Under_rel.*`, `Coq.Reals.Rdefinitions.*`) are opaque module
parameters of the standard library and not used by any theorem here.

## 5. What is modelled

| Theories | Code | Not modelled there |
|---|---|---|
| AdjList | graph/AdjacencyList.h; compute_from_transpose (mesh/topologycomputation.cpp); transpose_dofmap (fem/DofMap.cpp) | str(), hash() |
| Sort | common/sort.h (radix_sort, sort_by_perm); sort_unique | radix projection functors other than unsigned bias |
| Ranges | common/local_range.h; MPI::index_owner | |
| Nbx, NbxRuns | compute_graph_edges_nbx/pcx (common/MPI.cpp) | progress of MPI itself |
| World | neighbourhood and global collectives used by the code | |
| IndexMap | common/IndexMap.{h,cpp} constructors, l2g, g2l, src/dest, shared_indices, index_to_dest_ranks | imbalance, str |
| SubMap | compute_owned_indices, stack_index_maps, create_sub_index_map (common/IndexMap.cpp) | |
| Scatterer, VectorOps | common/Scatterer.h (neighbourhood type), la/Vector.h | point-to-point scatter variants |
| PostOffice | distribute_data, distribute_from_postoffice, distribute_to_postoffice (common/MPI.h) | |
| Sparsity | la/SparsityPattern.{h,cpp} | constructor from blocks of patterns |
| MatrixCSR, MatrixPar | la/MatrixCSR.h, la/matrix_csr_impl.h | |
| MatTrans, MatMul | la/mattrans.h, la/matmul.h | |
| Collectives | order of the collective calls of the above | |
| Bbox | geometry/BoundingBoxTree.h; tree queries of geometry/utils.h | GJK, determine_point_ownership |
| Tags | mesh/EntityMap.{h,cpp}; mesh/MeshTags.h | tags read from files |
| CellTypes | mesh/cell_types.cpp, with the Basix topology tables it reads | geometry of the reference cells |
| DirichletBC | the class of fem/DirichletBC.h | |
| RefUtils | refinement/utils.cpp: adjust_indices, transfer_cell_meshtag, transfer_facet_meshtag | the refinement itself |
| Ordering | graph/ordering.cpp (reverse Cuthill-McKee) | bandwidth |
| Orient | topologycomputation.cpp: body of build_entity_list; permutationcomputation.cpp | |
| Entities | topologycomputation.cpp: compute_entities_by_key_matching up to the local numbering, threads | |
| LocalIndexing | topologycomputation.cpp: get_local_indexing, get_ownership, create_adj_list | |
| DofBuilder | fem/dofmapbuilder.cpp | layouts without dofs (division by zero in reorder_owned), logging |
| SubDofs | fem/ElementDofLayout.cpp: sub_layout, sub_view; fem/DofMap.cpp: extract_sub_dofmap, collapse, build_collapsed_dofmap; the permutation step of create_dofmap (fem/utils.cpp) | the Basix permutations themselves |
| Assemble | fem/assemble_vector_impl.h, fem/assemble_matrix_impl.h, fem/assemble_scalar_impl.h: all integral types; the dof transformations are arbitrary functions that act on the dofs of one cell, columnwise or rowwise (on_columns, on_rows in AssembleSpec) | floating-point rounding, buffers' sizes, fixed block size templates other than their dispatch |
| AssembleBC | fem/assembler.h: assemble_matrix with boundary conditions, set_diagonal, apply_lifting; lift_bc (assemble_vector_impl.h); FunctionSpace::contains; fem::set_bc loop | parallel accumulation of ghost rows in C46 |
| FormData | fem/utils.h: the integral loops of create_form_factory; fem/utils.cpp: compute_integration_domains; mesh/utils.cpp: exterior_facet_indices; fem/Form.h: integral, num_integrals and the entity maps of arguments; forms.py: get_integration_domains | coefficient numbering, the check of kernels for null |
| Locate | fem/DirichletBC.cpp: find_local_entity_index, get_remote_dofs, locate_dofs_topological for one space and for a pair | locate_dofs_geometrical; the element's closure dofs are an input |
| Marking | refinement/plaza.h: compute_refinement_data up to the marks; plaza.cpp: enforce_rules; refinement/utils.cpp: update_logical_edgefunction | face_long_edge (lengths of edges are not modelled; its result is an input), the loop has a bound that is proved not to be reached |
| Plaza | refinement/plaza.cpp: get_triangles, get_tetrahedra, get_simplices; plaza.h: compute_parent_facets, face_long_edge (one face), the body of the loop over cells in compute_refinement | lengths are elements of any order; edge_ratio_ok is an input; std::sort of three positions is insertion sort |
| Cells | io/cells.cpp: all functions except get_vtk_cell_type | std::sqrt and std::cbrt of an int are the exact root rounded down; int does not wrap; entries of the permutations wrap at 2^16; erase outside the vector is an error |
| DualGraph | mesh/graphbuild.cpp: build_local_dual_graph, compute_nonlocal_dual_graph, build_dual_graph | the threads store the facets of their cells in any order; the parallel sort is any sorting permutation; logging |
| Distribute | graph/partition.cpp: both overloads of distribute | the radix sort by destination is a stable sort (C03) |
| GhostIdx | graph/partition.cpp: compute_ghost_indices, compute_local_to_global, compute_local_to_local | message counts do not wrap |
| MeshCreate | mesh/utils.h: impl::reorder_list, reordering in create_boundary_vertices_fn, distribution of cells and coordinates in create_mesh; mesh/Geometry.h: create_geometry | destinations (partitioner), reordering (reorder_fn) and the dofmaps of the geometry (build_dofmap_data, permute_inv) are parameters; the topology is not built here |
| Sharing | mesh/Topology.cpp: determine_sharing_ranks | the random engine is any choice; positions of neighbours; both sorts of (rank, position) pairs are one |
| TopoCreate | mesh/Topology.cpp: vertex_ownership_groups, exchange_indexing, exchange_ghost_indexing, convert_to_local_indexing, create_topology | triplets are one item; hash maps are association lists; ranges of threads are one range; radix sort is a sort (C03); the checks under NDEBUG are made; construction of the Topology object from the result is left out |
| BoundaryVerts | mesh/utils.h: create_boundary_vertices_fn | facets of a type are a list of rows; the reordering function is any permutation of the owned cells; vertex numbers are unbounded and at most 2^63 - 2 in the theorems (C60); exceptions and asserts are None |
| SubMesh | mesh/utils.h 887-985, 1356-1492; Topology.cpp 1520-1599; utils.cpp 133-167 | points of any type instead of three numbers; one cell type in the geometry; the permutation of closure dofs (Basix) is any function of rank, cell and entity; the coordinate element of the sub-mesh is left out |
| TagTransfer | mesh/utils.h 1494-1686 | one rank (no communication); integer values; the topologies are numbers of entities and connectivities |
| PointOwner | geometry/utils.h 521-558, 683-982 | points are items of any type; tree searches and squared distances are arbitrary functions (distances integers); -1 is `None` |
| EntityData | io/utils.h 30-487 | rows of arrays are lists, a row and its value are one item; of the element layout only the vertex dofs, the closure dofs of the first entity and its number of vertices |
| Generation | mesh/generation.h | real coordinates, counters without overflow; create_mesh, elements and partitioners are not part of it (C63 is about create_mesh) |
| CellMap | common/math.h (without cross), fem/CoordinateElement.h 132-230, CoordinateElement.cpp 86-188 and 242-250, dolfinx_wrappers/fem.h 1102-1113 (layout of the working array) | real numbers, arrays as functions, division by zero gives None; basis functions are a parameter |
| Uniform | refinement/uniform.cpp 15-309 | the entity types are the same on all ranks; layouts given by the number of dofs and those of the vertices; the call of create_mesh at the end |
| Gjk | geometry/gjk.h 34-555 | real numbers; casts; the log messages |
| Interp | fem/interpolate.h 367-452, 664-860, 1131-1190, 1320-1348, fem/Function.h 457-760 | Piola maps; values of the basis functions (argument); transformations (argument) |
| NonMatching | fem/interpolate.h 46-106, 157-290, 1110-1128, 1215-1275 | values of the basis functions (argument); the check of the communicators |
| FormPattern | fem/sparsitybuild.h 38-50, sparsitybuild.cpp 16-55, fem/utils.h 192-313 | creation of entities and connectivities |
| Pack | fem/pack.h 60-599, fem/Form.h 304-338, 421-432, 563-571, 593-604 | Expression wrappers; compile-time block sizes |
| StackPattern | la/SparsityPattern.cpp 28-44, 54-192 | checks of ranges and block sizes (absent in the code) |
| NewVerts | refinement/utils.h 42-280; refinement/interval.h 40-195; mesh/utils.h 598-638 (compute_midpoints) | overflow, rounding; the call of create_mesh with the new cells |
| DestRanks | graph/partitioners.cpp 42-231; refinement/refine.h 43-88 | overflow; comm == MPI_COMM_NULL |
| MarkMax | refinement/mark.h | rounding |
| Newton | nls/NewtonSolver.{h,cpp} | PETSc options and objects; contents of vectors and matrices that callbacks do not overwrite |
| DofCoords | fem/FunctionSpace.h (tabulate_dof_coordinates), fem/DirichletBC.h (locate_dofs_geometrical) | tabulation of the coordinate element (data) |
| DiscreteOps | fem/discreteoperators.h | tabulation, push forward and pull back of values (data and linear maps), clamping of small values, checks of element types |
| Xdmf | io/xdmf_mesh.cpp, io/xdmf_mesh.h, io/xdmf_utils.h, io/xdmf_function.cpp, io/HDF5Interface.h | XML (shapes are arguments), inline ASCII data, HDF5 itself (data sets are lists), complex values, checks of element families |
| Expr | fem/assemble_expression_impl.h, fem/assembler.h (tabulate_expression), fem/Function.h (interpolate of an Expression) | kernels, dof transformations and packing are arguments; tolerance of points |
| Spaces | fem/FunctionSpace.h (sub, contains, common_function_spaces) | elements and dof maps of subspaces |
| VtkHdf | io/VTKHDF.h (write_mesh, write_data, and read_mesh up to create_mesh), io/cells.cpp (get_vtk_cell_type), io/cells.h (vtk_to_dolfinx) | groups and attributes except the number of steps; constant data sets of steps; create_mesh |
| Vtx | io/vtk_utils.h (vtk_mesh_from_space, tabulate_lagrange_dof_coordinates), io/vtk_utils.cpp (extract_vtk_connectivity), io/ADIOS2Writers.h (vtx_write_data, vtx_write_mesh, vtx_write_mesh_from_space) | the ADIOS2 engine, attributes and steps; complex values (written as two real arrays); the checks of the VTXWriter constructor |
| VtkFile | io/VTKFile.cpp (write_function: the values for points and cells) | XML nodes, files for other processes, the mesh part (it is that of Vtx), complex values (written as two real arrays) |
| Table | common/Table.cpp (set, get, reduce) | str, titles, lists of row and column names; order of the map |
| TimeLog | common/TimeLogger.cpp (register_timing, timing, timing_table, list_timings), common/Table.cpp (str: the look-up of entries) | text and widths of columns, printing, clocks |
| CommGraph | graph/utils.cpp (comm_graph), common/IndexMap.cpp (rank_type), python/dolfinx/graph.py (comm_graph), python/dolfinx/wrappers/graph.cpp (comm_graph_data) | comm_to_json |

## 6. Findings

Places where the code, as read, does not do what the property asks (each is a theorem
whose name ends in `_refuted`, with a concrete witness):

* C02: transpose_dofmap with no cells takes the maximum of an empty range.
* C03, C04: radix_sort with a digit as wide as the key or counters that are too narrow; the column-major claim in the comment of sort_by_perm.
* C07: two consensus rounds with the same tag can mix; C08: back-to-back calls of the personalised census can mix.
* C20: the maximum norm reads past the end on a rank that owns nothing.
* C21: orthonormalize projects with the conjugate of the needed coefficient for complex scalars.
* C23: inserting blocks in an unblocked matrix checks only the first column of a block.
* C24: columns received by the matrix constructor are narrowed to 32 bits.
* C29: transpose and matmul skip collective calls on ranks without neighbours, while other ranks make them.
* C30: the result of a user reordering function is not checked.
* C31: only the first cell type that needs an entity type is checked for computed connectivity; later ones keep dof 0.
* C33: in a mesh without cells no rank owns the real dof and rank 0 is told that it ghosts itself.
* C34: sub_layout and sub_view follow every component of a path from the root, so a path of two or more components reads the wrong level. Collapsing a blocked view builds a dofmap without the permutations that create_dofmap applied to the parent, so for elements with permuted dofs (degree 3 and more) the returned map is right for only one of the cells of a shared edge.
* C37: the rotation of a triangle narrows global vertex numbers to int; from 2^32 on ranks can disagree.
* C39: a directed graph is not renumbered by a permutation (the documented input is undirected).
* C40: a point query on a tree of one entity (not entity 0) reads past the end if the point is outside.
* C42: closest-entity search on padded vertex trees measures from the corner of the padded box.
* C43: boxes of point-cloud trees are spanned by lexicographic extremes and do not contain their points.
* C51: cell_entity_closure of a point reads outside the topology table.
* C45: set_diagonal with an adding function doubles the diagonal of a dof that two boundary conditions constrain.
* C47: on a mesh with several cell types, vector assembly runs the integrals over exterior facets, ridges and vertices once per cell type (assemble_matrix throws for such meshes instead).
* C59: create_form keeps the array of default facets (vertices, ridges) between integrals and appends to it: a second integral with the default id, or a second cell type, gets every entity twice.
* C48: locate_dofs_topological with remote=true asks only ranks that own, or ghost, dofs of this rank: a ghost dof that lies on the entity of a third rank is not returned.
* C52: the entries of node permutations have 16 bits, so no ordering of more than 65536 nodes is a permutation; with one node (degree 0) the orderings have too many entries, and transpose writes out of bounds for hexahedra (the VTK writers do not call them for piecewise constants).
* C60: on one process the rows of the dual graph are not sorted and list a cell once for each common facet, on several processes they are sorted and without repetition, so the graph depends on the number of processes; a facet attached to more than max_facet_to_cell_links cells on several processes is missed when one process has max_facet_to_cell_links of them (documented in graphbuild.h; the description of the returned facets there says "max_facet_to_cell_links or less", the code returns those with less).
* C61: distribute for adjacency lists sizes its messages by the number of links of the first node of each rank, not by the largest number (partition.cpp:57-63): a node with more links than that is received with wrong links.
* C62: compute_local_to_local does not document that the second numbering must be free of repetitions; with them the shortcut for contiguous indices (partition.cpp:623-626) gives wrong answers ([0,0,1,3]: 1 is found at position 1).
* C64: determine_sharing_ranks sends the global (64-bit) input indices of boundary vertices as 32-bit int (Topology.cpp:144). With input indices from 2^31 on, different vertices that agree modulo 2^32 and have the same post office are taken for one (C64_wide_indices_refuted: a check fails; without the check memory outside an array is written).
* C65: create_boundary_vertices_fn looks at facets of the owned cells only. A vertex that two ranks share but that is inside a closed fan of cells on both (cells that meet in a vertex only) is on no boundary; create_topology then numbers it twice without an error (C65_pinched_refuted: 8 vertices instead of 7). With several cell types a facet in three cells raises an exception, whatever max_facet_to_cell_links is (C65_joint_refuted; with one type it works). Facets of different types are compared on the vertices of the shorter one, which makes (0,1,2) and (0,1,2,4) equal (C65_part_refuted; only in degenerate meshes). The returned function also keeps a reference to the reordering function it was given, which dangles if the caller passed a temporary and stores the result (not modelled).
* C66: entities keep their owner (create_sub_index_map without change of owner), so a rank must choose every entity it owns that another rank chooses, otherwise the call fails on all ranks (C66_owner_must_choose); vertices and geometry dofs may change owner. The order of geometry dofs in a cell of the sub-mesh is that of the closure in the first cell of the entity; that two ranks see the same order depends on the permutation by Basix and is an assumption of C66_shared_cells.
* C67: transfer_meshtags_to_submesh marks entities without a tag by the largest value of the type, so a tag with this value (for instance the largest int32) is lost without an error (C67_max_value_refuted). The C++ function also requires the connectivity between cells and tagged entities of the sub-mesh when cells are tagged, where it is not used (the Python wrapper creates it).
* C68: no wrong result found. The owner depends on the cells near the point (padded boxes): a point outside the padding gets no owner.
* C69: the documentation of distribute_entity_data speaks of entities a process owns, the function returns all entities whose vertices are on the process, also when they are only ghosts (C69_distribute). num_nodes_g is documented as the number of geometry nodes, which does not count input nodes that no cell uses; then input indices may not be below it and index_owner fails its assertion or (without assertions) names a rank that does not exist (C69_unused_nodes_refuted). A node that a process lists twice gives its entities twice (C69_repeated_nodes_refuted).
* C70: build_prism divides the cells over `comm` where the other builders use `subcomm`; with a smaller subcomm cells are lost (C70_prism_subcomm_refuted). The documentation of create_box and create_rectangle says that the order of the two points is not important, but points that are not in order are refused (C70_point_order_refuted). The zero-width tests are absolute (2 epsilon for the width of a cell of a box, epsilon for rectangles of triangles and intervals; none for quadrilaterals), so tiny boxes are refused. The documented numbers of vertices and cells of triangles leave out `crossed`. `shared_facet` acts as `right`.
* C72: the children of a pyramid (five pyramids, four tetrahedra) do not fill it: the upside-down pyramid below the top one is missing, an eighth of the volume (C72_pyramid_refuted). A mesh with pyramids and no tetrahedra is rejected; a mesh with higher-order geometry is not, but `entity_dofs(0, k)` is called for every node `k` and throws for the first that is no vertex (C72_curved_refuted).
* C73: in a triangle all tests for vertices and edges are strict. If the closest point is a vertex `c` with `c.c = a.c` and `c.c < b.c`, none passes, the weights are negative and a point outside the triangle is returned: for the corners (1, 2, 0), (2, -2, 0), (1, 0, 0) and the origin the result is (3, 0, 0) instead of (1, 0, 0) (C73_tie_refuted). In a tetrahedron `d[i][i]` is read before it is written: harmless for the multi-precision types, which start at zero, but the Python interface uses `double` for `float32` input, and a positive value hides the closest vertex (C73_uninitialised_refuted). Not modelled: the worker threads of `compute_distances_gjk` are joined by the destructors after the result has been moved or elided into the return value, and an exception in one of them ends the process.
* C74: `interpolate` with values at points checks the number of components and the total size, but not that there is one value for each point of each cell: with fewer cells' values than cells it reads past the end of the array (the Piola-mapped branch does check). Not a theorem: in the model both are errors.
* C75: the value size of the function is not compared with that of the space it is interpolated into. A scalar function into a vector space silently gives zero for the other components; for a vector-valued function and a scalar space the rows overlap and the last one is written past the end of the array (C75_value_size_refuted). Interpolation on the same mesh throws in both cases.
* C76: a matrix made for a form never lacks an entry that assembly adds to; nothing wrong found. For meshes with several cell types the pattern is also built for facet integrals, which assembly then refuses (C47).
* C77: nothing wrong for one cell type. The tables of the form about the entities of coefficients are keyed without the cell type, so that only the entities of the first cell type would be packed on a mesh with several; FunctionSpace::dofmap throws before that for a coefficient on such a mesh. Packing over entities leaves the old contents where a coefficient has no cell, so that the caller must clear the array, whereas packing for a form starts from zeros.
* C78: nothing wrong within the assumptions. The constructor trusts that the block sizes passed separately agree with those paired with the index maps and that the blocks live on these maps (its FIXME says so); in PETSc block matrices both come from the same dofmaps.
* C79: nothing wrong within the assumptions. For geometry of higher order the new vertex is the mean of all nodes of the edge, which is not the image of the middle of the reference edge in general, and the refined mesh is created with the coordinate element of the parent though the cells only list vertices: refinement is meant for affine geometry, which the code does not check.
* C80: compute_destination_ranks sizes the array that receives one number from each source by the number of destinations (partitioners.cpp:137), so a graph with one-way links writes behind the end of the array; dual graphs have no such links. The identity partitioner tests `parent_cell[i] > parent_num_cells` where the first ghost has the number parent_num_cells, so its children would stay on this process; the refinement functions only return owned parents, so this is not reached. It also asks for the rank in `comm` before it tests that `comm` is not MPI_COMM_NULL.
* C81: the documentation of mark_maximum promises `marker_i >= theta max(marker)`, the code tests `>`: indicators equal to the threshold are not marked, none is marked if all are zero, and none, not even the largest, if the largest is negative.
* C82: NewtonSolver sets residual0 to the norm of the first increment also when the criterion is "residual" (NewtonSolver.cpp:222-227), so the relative residual is a residual divided by an increment. Multiplying the equations by a number changes when the solver stops: it accepts a residual that is half the initial one for rtol = 1/10, or goes on when it is 1/32 of it. The first test divides by zero, so only atol counts there, and with "incremental" at least two steps are made.
* C83: tabulate_dof_coordinates sizes its work array by the element of the first cell type (FunctionSpace.h:259-260, 275-276) although it loops over all: a later cell type whose element has more interpolation points writes outside of it (C83_mixed_refuted). Dofs that are in no cell of the process get the coordinates (0, 0, 0) and are located by markers that hold at the origin.
* C84: interpolation_matrix does not check value sizes: with more components in the first space than in the second the unrolled basis is written out of bounds (discreteoperators.h:564-569), with fewer the remaining components count as zero (C84_value_sizes_refuted). The pushed forward basis (basis0, line 487) is sized by the reference value size, which is not the size of the values on manifolds.
* C86: get_dataset (xdmf_utils.h) multiplies all of the XML shape for the row size and then again by the number of rows, so that flat HDF5 data with two or more rows is always refused (C86_flat_refuted); it also calls local_range with the rank in place of the number of processes, and its last check tests whether the XML shape is empty instead of not empty. add_topology_data tests `tdim` instead of `dim` for prisms and pyramids, which is never true. One-dimensional meshes are written with two coordinates and read as two-dimensional.
* C87: two-dimensional tensors are padded to nine components at the end, so that component (1, 0) is where a reader expects (0, 2) (C87_tensor_refuted).
* C88: an expression without coefficients that depends on a mesh only through its coordinates is evaluated in the mesh of the function, whatever mesh it was made for: cells0 are then cells of that mesh (as documented). Only coordinate elements are compared, so two different meshes with cells of one kind are not told apart.
* C89: common_function_spaces takes the number of columns from the first row: a later, longer row makes it write outside the array, where an exception is documented for inconsistent input.
* C90: VTKHDF::write_mesh takes the number of offsets of a cell type from the geometry dof map, which has ghost cells too, so with ghost cells of any type but the last the offsets in the file are wrong (C90_ghosts_refuted). get_vtk_cell_type gives codes without degree from which read_mesh cannot find the degree of quadratic prisms and 20-node hexahedra, and code 14 (linear pyramids) for all pyramids (C90_degree_refuted). The first offset is never written: the reader relies on new storage being zero (`fill 0 = 0`).
* C91: write_data divides by the number of owned points or cells: a process without any crashes (C91_empty_process_refuted). The number of steps is shared by point and cell data: the first cell data written after point data asks for the shape of a data set that does not exist.
* C92: vtx_write_data copies the block of a dof to the first of nine components for any tensor: entry (1, 0) of a two by two tensor is written as entry (0, 2) and of a symmetric three by three tensor, with six values, entry (2, 2) is always zero (C92_tensors_refuted). The global indices of points are made from the index map without its block size, so they are those of dofs only if the block sizes of the index map and of the dof map are equal, as C92_space assumes.
* C93: VTKFile.cpp line 586 pads `_u.x()->array()` where the array `u`, just put in the order of the first space, is meant: on meshes that are not of dimension three, functions in a space with another dof map (for example a collapsed sub space) are written at wrong points (C93_order_refuted). On meshes of dimension three nothing is padded, but the number of components is given as 3 or 9 (C93_padding_refuted).
* C94: Table::reduce divides the sum by the number of all processes, so the average of an entry that some processes do not have is too small (C94_average_refuted). On two or more processes text entries are lost and integers are those of the first process, while on one process all are kept.
* C95: the column "reps" of a timing table has integers, which Table::reduce takes from the first process only. A task timed on another process only therefore has a row without that entry, and list_timings throws "Missing table value" on the first process if it has timed any task (C95_list_refuted).
* C96: the Python function comm_graph takes a root but does not pass it on (python/dolfinx/graph.py:183), so the graph is always built on rank 0 and the root that was asked for gets an empty one (C96_python_refuted).
