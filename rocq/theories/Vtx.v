(** Model of what VTX files hold: the mesh made from a Lagrange space (cpp/dolfinx/io/vtk_utils.h), the cells in VTK order
    (io/vtk_utils.cpp), and the data that a process puts (io/ADIOS2Writers.h).

    Simplifications: one process, with its owned and ghost dofs; numbers are of any type with [zero], [add] and [mul]; indices are natural
    numbers; the space is described as in the model of tabulate_dof_coordinates (DofCoords).  Arrays that are written row by row are
    made row by row.  Names and types of ADIOS2 variables are left out; complex functions are written as two real ones. Exceptions and accesses outside
    arrays are [None]. *)
From Verif Require Import Base CellTypes Cells DofCoords.
Open Scope nat_scope.

(** vtk_utils.h:153-163: global indices and ghost flags.  The entries after those of the index map stay zero. *)
Definition point_ids (num_nodes range0 size_local : nat) (ghosts : list nat) : option (list nat) :=
  if num_nodes <? size_local + length ghosts then None
  else Some (map (Nat.add range0) (seq 0 size_local) ++ ghosts ++ repeat 0 (num_nodes - size_local - length ghosts)).
Definition point_ghosts (num_nodes size_local : nat) : option (list bool) :=
  if num_nodes <? size_local then None else Some (repeat false size_local ++ repeat true (num_nodes - size_local)).

(** vtk_utils.h:213-231: the dofs of the cells in VTK order; row [c] starts at [c * num_nodes] *)
Definition vtk_topology (t : cell_type) (num_nodes num_cells : nat) (dofmap : list (list nat)) : option (list nat) :=
  p <- perm_vtk t (Z.of_nat num_nodes) ;; vtkmap <- transpose p ;;
  rows <- omap (fun c => dofs <- nth_error dofmap c ;;
      row <- omap (fun i => k <- nth_error vtkmap i ;; nth_error dofs (Z.to_nat k)) (seq 0 (length dofs)) ;;
      Some (row ++ repeat 0 (num_nodes - length dofs))) (seq 0 num_cells) ;;
  Some (concat rows).
(** io/vtk_utils.cpp:22-48: all rows of the dof map have [num_nodes] entries *)
Definition extract_vtk_connectivity (t : cell_type) (num_nodes : nat) (dofmap_x : list (list nat)) : option (list nat) :=
  p <- perm_vtk t (Z.of_nat num_nodes) ;; vtkmap <- transpose p ;;
  rows <- omap (fun nodes => omap (fun i => k <- nth_error vtkmap i ;; nth_error nodes (Z.to_nat k)) (seq 0 num_nodes)) dofmap_x ;;
  Some (concat rows).
(** ADIOS2Writers.h:331-340 and 388-403: the number of nodes before the nodes of each cell *)
Definition pack_cells (num_cells num_nodes : nat) (vtk : list nat) : option (list nat) :=
  rows <- omap (fun c => row <- slice vtk (c * num_nodes) (c * num_nodes + num_nodes) ;; Some (num_nodes :: row)) (seq 0 num_cells) ;;
  Some (concat rows).

Section Space.
Variables (T : Type) (zero : T) (add mul : T -> T -> T).
(** vtk_utils.h:60-166 and 196-239, then ADIOS2Writers.h:371-438: coordinates, global indices, ghost flags and cells *)
Definition vtx_mesh_from_space (gdim : nat) (x_g : list T) (mixed : bool) (index_map_bs range0 size_local : nat) (ghosts : list nat)
    (dofmap_bs space_dimension block_size : nat) (t : cell_type) (V : dof_cells T) : option (list T * list nat * list bool * list nat) :=
  if mixed then None else
  if (dofmap_bs =? 0) || (block_size =? 0) then None else
  let scalar_dofs := space_dimension / block_size in
  let num_nodes := index_map_bs * (size_local + length ghosts) / dofmap_bs in
  coords <- ofold (cell_coords T zero add mul gdim x_g false num_nodes scalar_dofs V) (seq 0 (dc_ncells T V)) (repeat zero (3 * num_nodes)) ;;
  x_id <- point_ids num_nodes range0 size_local ghosts ;;
  id_ghost <- point_ghosts num_nodes size_local ;;
  vtk <- vtk_topology t scalar_dofs (dc_ncells T V) (dc_dofs T V) ;;
  cells <- pack_cells (dc_ncells T V) scalar_dofs vtk ;;
  Some (coords, x_id, id_ghost, cells).
(** ADIOS2Writers.h:295-360: nodes, ghost flags and cells of a mesh; the coordinates and the input indices are written as they are. *)
Definition vtx_mesh (size_local num_ghosts : nat) (t : cell_type) (num_nodes : nat) (dofmap_x : list (list nat)) : option (list bool * list nat) :=
  vtk <- extract_vtk_connectivity t num_nodes dofmap_x ;;
  cells <- pack_cells (length dofmap_x) num_nodes vtk ;;
  x_ghost <- point_ghosts (size_local + num_ghosts) size_local ;;
  Some (x_ghost, cells).
(** ADIOS2Writers.h:226-265: 3 to the power of the rank, or more *)
Definition num_components (value_shape : list nat) : nat :=
  let n := fold_left Nat.mul value_shape 1 in let m := 3 ^ length value_shape in if n <? m then m else n.
(** With more values than components, the last ones are written outside the array. *)
Definition vtx_data (index_map_bs num_indices dofmap_bs : nat) (value_shape : list nat) (u : list T) : option (list T) :=
  if dofmap_bs =? 0 then None else
  let num_dofs := index_map_bs * num_indices / dofmap_bs in let num_comp := num_components value_shape in
  if (num_comp <? index_map_bs) && (0 <? num_dofs) then None else
  rows <- omap (fun i => values <- slice u (i * index_map_bs) (i * index_map_bs + index_map_bs) ;; Some (values ++ repeat zero (num_comp - index_map_bs))) (seq 0 num_dofs) ;;
  Some (concat rows).
End Space.
