(** Model of mesh::create_submesh: create_subtopology (cpp/dolfinx/mesh/Topology.cpp),
    compute_incident_entities (mesh/utils.cpp), entities_to_geometry and create_subgeometry
    (mesh/utils.h).

    Simplifications: connectivities are lists of rows, that exist; the geometry of a mesh has
    one cell type; points are items of any type instead of three numbers in an array; the
    coordinate element is its closure dofs and the permutation of the closure of a sub-entity
    (Basix).  Exceptions, failing [assert]s and accesses outside arrays are [None]. *)
From Verif Require Import Base Algo World IndexMap SubMap.

(** utils.cpp:156-166: the entities that [entities] are connected to, sorted, each once. *)
Definition incident_entities (links : list (list nat)) (entities : list nat) : option (list nat) :=
  entities1 <- omap (nth_error links) entities ;; Some (sort_uniq (concat entities1)).

(** Topology.cpp:1574-1577, utils.h:1416-1419: from parent to sub-mesh; [None] is -1. *)
Definition parent_to_sub (n : nat) (sub_to_parent : list nat) : option (list (option nat)) :=
  ofold (fun m p => upd m (snd p) (Some (fst p))) (combine (seq 0 (length sub_to_parent)) sub_to_parent) (repeat None n).
(** Topology.cpp:1583-1584, utils.h:1427-1428 *)
Definition to_sub (m : list (option nat)) (i : nat) : option nat := s <- nth_error m i ;; s.

Definition map_size (m : imap) : nat := size_local m + num_ghosts m.
Definition sub_result (r : option (imap * list nat)) : list nat := match r with Some (_, l) => l | None => [] end.

Section SubTopology.
(** Index maps of the entities and of the vertices, vertices of entities and the chosen
    entities of all ranks. *)
Variables (P : nat) (emaps vmaps : nat -> imap) (e_to_v : nat -> list (list nat)) (entities : nat -> list nat).

(** Topology.cpp:1531-1545 *)
Definition sub_entity_map (r : nat) : option (imap * list nat) :=
  create_sub_index_map P emaps (fun q => sort_uniq (entities q)) false false r.
(** Topology.cpp:1560-1566 *)
Definition incident_vertices (q : nat) : list nat :=
  match incident_entities (e_to_v q) (sub_result (sub_entity_map q)) with Some l => l | None => [] end.
Definition sub_vertex_map (r : nat) : option (imap * list nat) :=
  _ <- incident_entities (e_to_v r) (sub_result (sub_entity_map r)) ;;
  create_sub_index_map P vmaps incident_vertices false true r.

(** Topology.cpp:1520-1599: index maps of cells and vertices of the sub-topology, vertices of
    its cells, parent entities and parent vertices. *)
Definition create_subtopology (r : nat) : option ((imap * imap * list (list nat)) * (list nat * list nat)) :=
  '(submap, subentities) <- sub_entity_map r ;;
  '(submap0, subvertices0) <- sub_vertex_map r ;;
  vertex_to_subvertex <- parent_to_sub (map_size (vmaps r)) subvertices0 ;;
  sub_e_to_v <- omap (fun e => vs <- nth_error (e_to_v r) e ;; omap (to_sub vertex_to_subvertex) vs) subentities ;;
  Some ((submap, submap0, sub_e_to_v), (subentities, subvertices0)).
End SubTopology.

Section Geometry.
(** Topological dimension, dofs in the closure of the entities of a cell, and the permutation
    of the closure dofs of entity [l] of cell [c] (with the permutation data of the cell). *)
Variables (tdim : nat) (closure_dofs_all : nat -> nat -> list nat).

(** utils.h:887-985, on one rank; [facet_unsupported]: facets of prisms and pyramids. *)
Definition entities_to_geometry (facet_unsupported : bool) (permute_closure : nat -> nat -> list nat -> list nat)
    (e_to_c c_to_e xdofs : list (list nat)) (dim : nat) (entities : list nat) (permute : bool) : option (list (list nat)) :=
  if facet_unsupported && (dim =? 2) then None
  else if dim =? tdim then
    omap (fun c => x_c <- nth_error xdofs c ;; omap (nth_error x_c) (closure_dofs_all tdim 0)) entities
  else
    omap (fun e =>
      cells <- nth_error e_to_c e ;;
      c <- hd_error cells ;;
      cell_entities <- nth_error c_to_e c ;;
      local_entity <- index_in e cell_entities ;;
      let closure_dofs := closure_dofs_all dim local_entity in
      let closure_dofs := if permute then permute_closure c local_entity closure_dofs else closure_dofs in
      x_c <- nth_error xdofs c ;;
      omap (nth_error x_c) closure_dofs) entities.
End Geometry.

Section SubGeometry.
(** Index maps of the geometry dofs, geometry dofs of the chosen entities. *)
Variables (P : nat) (xmaps : nat -> imap) (x_indices : nat -> option (list (list nat))).

Definition sub_x_dofs (q : nat) : list nat := match x_indices q with Some l => sort_uniq (concat l) | None => [] end.
(** utils.h:1356-1450: index map of the sub-geometry dofs, dofs of the cells, coordinates,
    input global indices; and the parent dofs. *)
Definition create_subgeometry {A} (x : list A) (igi : list nat) (r : nat)
  : option ((imap * list (list nat) * list A * list nat) * list nat) :=
  xi <- x_indices r ;;
  '(map, subx_to_x) <- create_sub_index_map P xmaps sub_x_dofs false true r ;;
  sub_x <- omap (nth_error x) subx_to_x ;;
  x_to_subx <- parent_to_sub (map_size (xmaps r)) subx_to_x ;;
  sub_x_dofmap <- omap (omap (to_sub x_to_subx)) xi ;;
  sub_igi <- omap (nth_error igi) subx_to_x ;;
  Some ((map, sub_x_dofmap, sub_x, sub_igi), subx_to_x).
End SubGeometry.

Section SubMesh.
Variables (P : nat) (emaps vmaps xmaps : nat -> imap) (e_to_v : nat -> list (list nat)) (entities : nat -> list nat).
Variables (tdim : nat) (closure_dofs_all : nat -> nat -> list nat) (facet_unsupported : bool) (permute_closure : nat -> nat -> nat -> list nat -> list nat).
Variables (e_to_c c_to_e xdofs : nat -> list (list nat)) (dim : nat).

(** utils.h:1382-1383: the geometry dofs of the chosen entities. *)
Definition sub_x_indices (q : nat) : option (list (list nat)) :=
  entities_to_geometry tdim closure_dofs_all facet_unsupported (permute_closure q) (e_to_c q) (c_to_e q) (xdofs q) dim
    (sub_result (sub_entity_map P emaps entities q)) true.
(** utils.h:1466-1492 *)
Definition create_submesh {A} (x : nat -> list A) (igi : nat -> list nat) (r : nat) :=
  top <- create_subtopology P emaps vmaps e_to_v entities r ;;
  geo <- create_subgeometry P xmaps sub_x_indices (x r) (igi r) r ;;
  Some (top, geo).
End SubMesh.
