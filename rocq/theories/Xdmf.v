(** Model of writing meshes, mesh tags and functions to XDMF files with HDF5 data sets, and of reading them
    (cpp/dolfinx/io/xdmf_mesh.cpp, xdmf_mesh.h, xdmf_utils.h, xdmf_function.cpp, HDF5Interface.h).

    Simplifications: integers are natural numbers; a data set is the list of its values in row-major order, and what
    it contains before it is written is any function of the position ([fill]); the XML file has the shapes, which
    are arguments here.  [order] is the order in which the processes write their parts.  Exceptions, failing
    assertions and accesses outside arrays are [None]. *)
From Verif Require Import Base Ranges CellTypes Cells.
Open Scope nat_scope.

(** ** Data sets *)
(** HDF5Interface.h:168-175 and 240-275: the rows of a range are replaced. *)
Definition write_slab {A} (F : list A) (off : nat) (data : list A) : option (list A) :=
  if off + length data <=? length F then Some (firstn off F ++ data ++ skipn (off + length data) F) else None.
(** MPI_Exscan with MPI_SUM *)
Definition exscan (n : nat -> nat) (r : nat) : nat := lsum (map n (seq 0 r)).
(** xdmf_utils.h:77-138 (HDF5): data of process [r] is written from row [offset r] on. *)
Definition add_data_item {A} (order : list nat) (fill : nat -> A) (rows width : nat) (offset : nat -> nat) (data : nat -> list A) : option (list A) :=
  if width =? 0 then None
  else ofold (fun F r => write_slab F (offset r * width) (firstn (length (data r) / width * width) (data r))) order (map fill (seq 0 (rows * width))).
(** xdmf_utils.h:146-262 (HDF5, no range given).  The last check is not modelled: an empty shape in the XML file is
    refused before. *)
Definition product (l : list nat) : nat := fold_left Nat.mul l 1.
Definition read_rows {A} (F : list A) (shape : list nat) (a b : Z) : option (list A) :=
  let w := product (tl shape) in slice F (Z.to_nat a * w) (Z.to_nat b * w).
Definition get_dataset {A} (rank size : nat) (shape_xml shape_hdf5 : list nat) (F : list A) : option (list A) :=
  match shape_hdf5 with
  | [] | 0 :: _ => None
  | n :: rest =>
    if list_eq_dec Nat.eq_dec shape_xml shape_hdf5 then
      let '(a, b) := local_range (Z.of_nat rank) (Z.of_nat n) (Z.of_nat size) in read_rows F shape_hdf5 a b
    else match shape_xml, rest with
         | s0 :: _, [] =>
           let d := product shape_xml in
           if negb (d * s0 =? n) then None
           else if rank =? 0 then None (* local_range.h: the number of processes is positive *)
           else let '(a, b) := local_range (Z.of_nat rank) (Z.of_nat s0) (Z.of_nat rank) in read_rows F shape_hdf5 (a * Z.of_nat d) (b * Z.of_nat d)
         | _, _ => None
         end
  end.

(** ** Meshes *)
(** std::find *)
Fixpoint find_index (f : nat -> bool) (l : list nat) : option nat :=
  match l with [] => None | x :: l => if f x then Some 0 else i <- find_index f l ;; Some (S i) end.
Section Mesh.
(** The index map of the geometry: owned nodes, their first global index and the ghosts *)
Variables (size_local offset_g : nat -> nat) (ghosts : nat -> list nat) (x_dofmap : nat -> list (list nat)).
(** xdmf_mesh.cpp:79-82 and 123-126 *)
Definition node_index (r i : nat) : option nat := if i <? size_local r then Some (offset_g r + i) else nth_error (ghosts r) (i - size_local r).
(** xdmf_mesh.cpp:101-118, the nodes of an entity: those of a cell; or those of the closure dofs of the entity in its
    first cell *)
Definition entity_nodes (cells_only : bool) (e_to_c c_to_e : nat -> list (list nat)) (entity_dofs : list (list nat)) (r e : nat) : option (list nat) :=
  if cells_only then nth_error (x_dofmap r) e
  else
    cells <- nth_error (e_to_c r) e ;; c <- nth_error cells 0 ;;
    cell_entities <- nth_error (c_to_e r) c ;;
    local <- find_index (Nat.eqb e) cell_entities ;;
    dofs <- nth_error entity_dofs local ;;
    xdofs <- nth_error (x_dofmap r) c ;;
    omap (fun d => nth_error xdofs d) dofs.
(** xdmf_mesh.cpp:70-128: the nodes of entities in VTK order *)
Definition topology_data (nodes : nat -> nat -> option (list nat)) (vtk_map : list Z) (num_nodes : nat) (entities : nat -> list nat) (r : nat) : option (list nat) :=
  l <- omap (fun e => ns <- nodes r e ;; omap (fun i => k <- nth_error vtk_map i ;; n <- nth_error ns (Z.to_nat k) ;; node_index r n) (seq 0 num_nodes)) (entities r) ;;
  Some (concat l).
(** xdmf_mesh.cpp:66-69 and 130-152 *)
Definition add_topology_data (P : nat) (order : list nat) (fill : nat -> nat) (nodes : nat -> nat -> option (list nat)) (t : cell_type) (num_nodes : nat) (entities : nat -> list nat) : option (list nat) :=
  p <- perm_vtk t (Z.of_nat num_nodes) ;; vtk_map <- transpose p ;;
  all <- omap (topology_data nodes vtk_map num_nodes entities) (seq 0 P) ;;
  let data r := nth r all [] in
  let num_local r := length (data r) / num_nodes in
  add_data_item order fill (lsum (map num_local (seq 0 P))) num_nodes (exscan num_local) data.
(** xdmf_mesh.cpp:155-208.  [x r]: three coordinates for each node *)
Definition geometry_data {U} (zero : U) (gdim : nat) (x : nat -> list U) (r : nat) : option (list U) :=
  if (gdim =? 0) || (3 <? gdim) then None else
  let width := if gdim =? 1 then 2 else gdim in
  if width =? 3 then slice (x r) 0 (size_local r * width)
  else l <- omap (fun i => row <- slice (x r) (3 * i) (3 * i + gdim) ;; Some (row ++ repeat zero (width - gdim))) (seq 0 (size_local r)) ;; Some (concat l).
Definition add_geometry_data {U} (zero : U) (P : nat) (order : list nat) (fill : nat -> U) (size_global gdim : nat) (x : nat -> list U) : option (list U) :=
  all <- omap (geometry_data zero gdim x) (seq 0 P) ;;
  add_data_item order fill size_global (if gdim =? 1 then 2 else gdim) (exscan size_local) (fun r => nth r all []).
(** xdmf_mesh.h:88-138: the tags of owned entities, the first of the sorted ones *)
Definition num_active (num_local_entities : nat) (indices : list nat) : nat := length (filter (fun e => e <? num_local_entities) indices).
Definition add_meshtags {V} (P : nat) (order : list nat) (fill : nat -> nat) (fillv : nat -> V) (nodes : nat -> nat -> option (list nat)) (t : cell_type) (num_nodes : nat)
    (num_local_entities : nat -> nat) (indices : nat -> list nat) (values : nat -> list V) : option (list nat * list V) :=
  let n r := num_active (num_local_entities r) (indices r) in
  topology <- add_topology_data P order fill nodes t num_nodes (fun r => firstn (n r) (indices r)) ;;
  vals <- omap (fun r => slice (values r) 0 (n r)) (seq 0 P) ;;
  v <- add_data_item order fillv (lsum (map n (seq 0 P))) 1 (exscan n) (fun r => nth r vals []) ;;
  Some (topology, v).
End Mesh.

(** xdmf_mesh.cpp:297-333 *)
Definition read_topology_data (t : cell_type) (rank size n num_nodes : nat) (F : list nat) : option (list nat) :=
  data <- get_dataset rank size [n; num_nodes] [n; num_nodes] F ;;
  p <- perm_vtk t (Z.of_nat num_nodes) ;;
  apply_permutation data (length data / num_nodes) num_nodes p.
(** xdmf_mesh.cpp:262-295 *)
Definition read_geometry_data {U} (rank size n width : nat) (F : list U) : option (list U) :=
  if (width =? 2) || (width =? 3) then get_dataset rank size [n; width] [n; width] F else None.

(** ** Functions: xdmf_function.cpp:88-158, after the checks of the elements.  [rank] of the values, [ncomp] components *)
Definition padded_components (rank ncomp : nat) : nat := if ncomp <? 3 ^ rank then 3 ^ rank else ncomp.
Definition put_values {T} (x : list T) (bs ncomp : nat) (v : list T) (row dof : nat) : option (list T) :=
  ofold (fun v j => y <- nth_error x (bs * dof + j) ;; upd v (ncomp * row + j) y) (seq 0 bs) v.
Definition cell_values {T} (zero : T) (bs ncomp num_local_cells : nat) (dofmap : list (list nat)) (x : list T) : option (list T) :=
  ofold (fun v c => dofs <- nth_error dofmap c ;; if negb (length dofs =? 1) then None else
      ofold (fun v d => put_values x bs ncomp v c d) dofs v)
    (seq 0 num_local_cells) (repeat zero (num_local_cells * ncomp)).
Definition point_values {T} (zero : T) (bs ncomp num_cells num_local_points : nat) (dofmap dofmap_x : list (list nat)) (x : list T) : option (list T) :=
  ofold (fun v c => dofs <- nth_error dofmap c ;; dofs_x <- nth_error dofmap_x c ;;
      if negb (length dofs =? length dofs_x) then None else
      ofold (fun v p => if snd p <? num_local_points then put_values x bs ncomp v (snd p) (fst p) else Some v) (combine dofs dofs_x) v)
    (seq 0 num_cells) (repeat zero (num_local_points * ncomp)).
(** xdmf_function.cpp:160-215 *)
Definition add_function {T} (P : nat) (order : list nat) (fill : nat -> T) (size_global ncomp : nat) (values : nat -> option (list T)) : option (list T) :=
  all <- omap values (seq 0 P) ;;
  let data r := nth r all [] in
  add_data_item order fill size_global ncomp (exscan (fun r => length (data r) / ncomp)) data.
