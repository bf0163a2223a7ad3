(** Model of the values that io::VTKFile writes for functions (cpp/dolfinx/io/VTKFile.cpp, write_function).

    Simplifications: one process; values are of any type with [zero]; indices are natural numbers; the pairs of dofs
    between which values are copied are listed before the values are copied.  XML nodes and the text of numbers are left out.  Exceptions and
    accesses outside arrays are [None]. *)
From Verif Require Import Base Vtx.
Open Scope nat_scope.

Section Values.
Variables (T : Type) (zero : T).
(** VTKFile.cpp:499-501 and 567-575: for each pair, [bs] values from block [snd p] to row [fst p] of an array with rows of [stride] *)
Definition copy_blocks (bs stride : nat) (src : list T) (pairs : list (nat * nat)) (dst : list T) : option (list T) :=
  ofold (fun dst p => ofold (fun dst k => v <- nth_error src (bs * snd p + k) ;; upd dst (stride * fst p + k) v) (seq 0 bs) dst) pairs dst.
(** VTKFile.cpp:492-502: functions that are constant on each cell *)
Definition vtk_cell_data (num_cells bs : nat) (value_shape : list nat) (dofmap : list (list nat)) (u : list T) : option (list T) :=
  pairs <- omap (fun c => dofs <- nth_error dofmap c ;; Some (map (pair c) dofs)) (seq 0 num_cells) ;;
  copy_blocks bs (num_components value_shape) u (concat pairs) (repeat zero (num_cells * num_components value_shape)).
(** VTKFile.cpp:554-576: values in the order of the dofs of the first space *)
Definition reorder (num_cells bs : nat) (dofmap0 dofmap : list (list nat)) (u : list T) : option (list T) :=
  pairs <- omap (fun c => dofs0 <- nth_error dofmap0 c ;; dofs <- nth_error dofmap c ;;
      if length dofs <? length dofs0 then None else Some (combine dofs0 dofs)) (seq 0 num_cells) ;;
  copy_blocks bs bs u (concat pairs) (repeat zero (length u)).
(** VTKFile.cpp:514-597.  The function pad_data (516-531) does what vtx_write_data does.  In the last case the array before reordering is
    padded, as in line 586. *)
Definition vtk_point_data (gdim : nat) (same_space same_element : bool) (num_cells index_map_bs num_indices bs : nat) (value_shape : list nat)
    (dofmap0 dofmap : list (list nat)) (u : list T) : option (list T) :=
  if same_space then
    if gdim =? 3 then Some u else vtx_data T zero index_map_bs num_indices bs value_shape u
  else if same_element then
    v <- reorder num_cells bs dofmap0 dofmap u ;;
    if gdim =? 3 then Some v else vtx_data T zero index_map_bs num_indices bs value_shape u
  else None.
End Values.
