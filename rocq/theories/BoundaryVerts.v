(** Model of mesh::create_boundary_vertices_fn (cpp/dolfinx/mesh/utils.h): the vertices on
    the process boundary of a rank and the reordering of its cells, in mesh::create_mesh.

    Simplifications: vertex numbers are unbounded integers; facets of one cell type are a
    list of rows instead of one array and a row length, and the column-major array of the
    facets of all types is a list of rows.  Exceptions, failing [assert]s and accesses
    outside arrays are [None]; so is a type with more ghosts than cells, for which the C++
    code computes a huge number of owned cells. *)
From Verif Require Import Base Algo Sort World IndexMap CellTypes PostOffice DualGraph Distribute GhostIdx MeshCreate.
Open Scope nat_scope.

(** The data of one cell type on a rank: all nodes of the cells, their vertices, original
    indices and the number of ghosts. *)
Record block := mkBlock { b_cells : list Z; b_verts : list Z; b_original : list Z; b_ghosts : nat }.

(** The arguments [cells], [cells_v], [original_idx] and [ghost_owners] of the function. *)
Definition blocks_of (types : nat) (ghosts : nat -> nat) (nodes cells original : nat -> list Z) : list block :=
  map (fun t => mkBlock (nodes t) (cells t) (original t) (ghosts t)) (seq 0 types).

(** utils.h:365-371: number of leading entries that are not padding. *)
Definition trim_len (row : list Z) : nat := length row - prefix_len (fun z => (z <? 0)%Z) (rev row).
(** utils.h:381-388: do the leading vertices of [row0] agree with those of [row]? *)
Definition same_facet (row0 row : list Z) : bool :=
  let n := trim_len row0 in zrow_eqb (firstn n row0) (firstn n row).

(** utils.h:373-402: the vertices of the facets that appear once. *)
Definition group_vertices (g : list (list Z)) : option (list Z) :=
  match g with
  | [] => None
  | row0 :: t => if length g =? 1 then Some (firstn (trim_len row0) row0)
                 else if 2 <? length g then None else Some []
  end.

(** utils.h:328-409: facets of several cell types, with the number of vertices of a row. *)
Definition boundary_several (facets : list (list (list Z) * nat)) : option (list Z) :=
  match facets with
  | [] => None
  | _ =>
    let max_v := fold_right Nat.max 0 (map snd facets) in
    let facets0 := concat (map (fun f => map (fun row => row ++ repeat (-1)%Z (max_v - snd f)) (fst f)) facets) in
    perm <- sort_by_perm_cols 64 16 (map (fun j => map (fun row => nth j row 0%Z) facets0) (seq 0 max_v)) ;;
    rows <- omap (nth_error facets0) perm ;;
    groups <- group_by (length rows) same_facet rows ;;
    vertices <- omap group_vertices groups ;;
    Some (unique Z.eqb (isort Z.leb (concat vertices)))
  end.

(** utils.h:311-327: facets of a single cell type. *)
Definition boundary_single (facets : list (list Z)) : list Z :=
  let vertices := unique Z.eqb (isort Z.leb (concat facets)) in
  match vertices with
  | v :: t => if (v =? -1)%Z then t else vertices
  | [] => vertices
  end.

Section Boundary.
(** Scheduling of threads and sorting by threads in build_local_dual_graph, for each type. *)
Variable sched : nat -> nat -> list (nat * frow) -> list (nat * frow).
Variable tsort : nat -> list (list Z) -> list nat.
(** [reorder_fn]: offsets and data of a graph to the new positions of the nodes. *)
Variable reorder_fn : list nat -> list nat -> list nat.
Variables (max_facet_to_cell_links : option nat) (threads : nat).

(** utils.h:269-309: one cell type [t] (number [i]) with [num_dofs] nodes. *)
Definition boundary_block (i : nat) (t : cell_type) (num_dofs : nat) (b : block)
  : option ((list (list Z) * nat) * block) :=
  num_cell_vertices <- cell_num_entities t 0 ;;
  if length (b_verts b) / num_cell_vertices <? b_ghosts b then None
  else
    let num_owned_cells := length (b_verts b) / num_cell_vertices - b_ghosts b in
    cells1_v_local <- slice (b_verts b) 0 (num_owned_cells * num_cell_vertices) ;;
    ld <- build_local_dual_graph (sched i) (tsort i) [t] [cells1_v_local] max_facet_to_cell_links threads ;;
    let remap := reorder_fn (ld_offsets ld) (ld_data ld) in
    original_idx <- reorder_original (b_ghosts b) (b_original b) remap ;;
    cells_v <- reorder_cells num_cell_vertices (b_verts b) remap ;;
    cells <- reorder_cells num_dofs (b_cells b) remap ;;
    Some ((ld_facets ld, ld_width ld), mkBlock cells cells_v original_idx (b_ghosts b)).

(** utils.h:252-410: the boundary vertices and the reordered cells. *)
Definition boundary_vertices (celltypes : list cell_type) (num_dofs : nat -> nat) (blocks : list block)
  : option (list Z * list block) :=
  res <- omap (fun i => t <- nth_error celltypes i ;; b <- nth_error blocks i ;; boundary_block i t (num_dofs i) b)
              (seq 0 (length celltypes)) ;;
  let facets := map fst res in
  vertices <- (if length facets =? 1 then Some (boundary_single (concat (map fst facets))) else boundary_several facets) ;;
  Some (vertices, map snd res).
End Boundary.
