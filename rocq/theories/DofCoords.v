(** Model of [tabulate_dof_coordinates] (cpp/dolfinx/fem/FunctionSpace.h) and of
    [locate_dofs_geometrical] (cpp/dolfinx/fem/DirichletBC.h) for one and for two spaces.

    Simplifications: numbers are of any type with [zero], [add] and [mul]; the values of the
    coordinate basis functions at the interpolation points are data; the dof transformation of
    a cell is any function of the cell and the array of points.  Exceptions, failing [assert]s
    and accesses outside arrays are [None]. *)
From Verif Require Import Base Algo Interp NonMatching.
Open Scope nat_scope.

Section Coordinates.
Variables (T : Type) (zero : T) (add mul : T -> T -> T).

(** What the function reads for a cell type: [interpolation_ident()], the coordinate basis
    functions at the interpolation points, the geometry dofs, the number of cells, the dofs and
    the dof transformation *)
Record dof_cells := mkDC { dc_ident : bool; dc_phi : list (list T); dc_xd : list (list nat); dc_ncells : nat; dc_dofs : list (list nat);
  dc_transform : nat -> list T -> list T }.

Variables (gdim : nat) (x_g : list T).

(** FunctionSpace.h:318-328: the points of a cell.  [scalar_dofs]: the rows of the work array *)
Definition cell_points (scalar_dofs : nat) (t : dof_cells) (c : nat) : option (list T) :=
  x_dofs <- nth_error (dc_xd t) c ;;
  cd <- coordinate_dofs T gdim x_g x_dofs ;;
  x <- ofold (fun x ij => let '(i, j) := ij in
      row <- nth_error (dc_phi t) i ;;
      acc <- ofold (fun s k => f <- nth_error row k ;; y <- nth_error cd (k * gdim + j) ;; Some (add s (mul f y))) (seq 0 (length row)) zero ;;
      upd x (i * gdim + j) acc)
    (list_prod (seq 0 (length (dc_phi t))) (seq 0 gdim)) (repeat zero (scalar_dofs * gdim)) ;;
  Some (dc_transform t c x).
(** FunctionSpace.h:330-346: where coordinate [k] of dof [d] is stored *)
Definition coord_at (transpose : bool) (num_dofs d k : nat) : nat := if transpose then k * num_dofs + d else d * 3 + k.
Definition cell_coords (transpose : bool) (num_dofs scalar_dofs : nat) (t : dof_cells) (coords : list T) (c : nat) : option (list T) :=
  x <- cell_points scalar_dofs t c ;;
  dofs <- nth_error (dc_dofs t) c ;;
  ofold (fun coords jk => let '(j, k) := jk in
      d <- nth_error dofs j ;; v <- nth_error x (j * gdim + k) ;; upd coords (coord_at transpose num_dofs d k) v)
    (list_prod (seq 0 (length dofs)) (seq 0 gdim)) coords.
(** FunctionSpace.h:224-351.  [space_dimension] and [block_size] are those of the first
    element, [num_indices] is the number of owned and ghost indices of the first dof map. *)
Definition tabulate_dof_coordinates (transpose subspace mixed : bool) (index_map_bs num_indices dofmap_bs space_dimension block_size : nat) (types : list dof_cells) : option (list T) :=
  if subspace || mixed then None else
  if (dofmap_bs =? 0) || (block_size =? 0) then None else
  let scalar_dofs := space_dimension / block_size in
  let num_dofs := index_map_bs * num_indices / dofmap_bs in
  ofold (fun coords t => if negb (dc_ident t) then None else
      ofold (cell_coords transpose num_dofs scalar_dofs t) (seq 0 (dc_ncells t)) coords)
    types (repeat zero (3 * num_dofs)).

(** DirichletBC.h:102-138; [marker_fn] gets the transposed coordinates and returns a flag for
    each dof. *)
Definition marked_indices (marked : list bool) : list nat :=
  fold_left (fun dofs '(i, m) => if (m : bool) then dofs ++ [i] else dofs) (combine (seq 0 (length marked)) marked) [].
Definition locate_dofs (mixed : list bool) (coordinates : option (list T)) (marker_fn : list T -> list bool) : option (list nat) :=
  if existsb (fun m => m) mixed then None else
  x <- coordinates ;; Some (marked_indices (marker_fn x)).

(** DirichletBC.h:193-222: the pairs of dofs of a cell *)
Definition cell_pairs (element_bs bs0 bs1 : nat) (marked : list bool) (dofs0 dofs1 : list nat) : option (list (nat * nat)) :=
  l <- omap (fun '(i, d) => m <- nth_error marked d ;;
         if (m : bool) then
           omap (fun k => let local_pos := element_bs * i + k in
             d0 <- nth_error dofs0 (local_pos / bs0) ;;
             d1 <- nth_error dofs1 (local_pos / bs1) ;;
             Some (bs0 * d0 + local_pos mod bs0, bs1 * d1 + local_pos mod bs1)) (seq 0 element_bs)
         else Some []) (combine (seq 0 (length dofs1)) dofs1) ;;
  Some (concat l).
(** DirichletBC.h:154-237, for spaces on the same mesh ([same_mesh]) with the same element
    ([same_element]) *)
Definition locate_dofs_pair (same_mesh same_element : bool) (element_bs bs0 bs1 : nat) (coordinates1 : option (list T)) (marker_fn : list T -> list bool)
    (num_cells : nat) (dofmap0 dofmap1 : list (list nat)) : option (list nat * list nat) :=
  if negb same_mesh || negb same_element then None else
  if (bs0 =? 0) || (bs1 =? 0) then None else
  x <- coordinates1 ;; let marked := marker_fn x in
  l <- omap (fun c => dofs0 <- nth_error dofmap0 c ;; dofs1 <- nth_error dofmap1 c ;; cell_pairs element_bs bs0 bs1 marked dofs0 dofs1) (seq 0 num_cells) ;;
  let bc_dofs := sort_uniq_pairs (concat l) in
  Some (map fst bc_dofs, map snd bc_dofs).
End Coordinates.
