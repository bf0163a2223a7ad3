(** Model of VTKHDF files (cpp/dolfinx/io/VTKHDF.h): meshes with cells of several types, distributed over processes, and data at
    points or cells for time steps.

    Simplifications: integers are natural numbers (degrees are below 256); the geometry dof map of process [r] for the cell type
    number [i] is the list of its rows [dofmap r i], the first [num_cells r i] are those of owned cells; a data set is the list of its values;
    [fill] is what a new data set holds where nothing is written, [order] the order in which processes write.  Groups and attributes are left out, except
    the number of steps.  Exceptions and accesses outside arrays are [None]. *)
From Verif Require Import Base Ranges CellTypes Cells Xdmf.
Open Scope nat_scope.

(** io/cells.cpp:717-748, where [dim] is the dimension of the cell *)
Definition vtk_code (t : cell_type) : nat :=
  match t with Point => 1 | Interval => 68 | Triangle => 69 | Quadrilateral => 70 | Tetrahedron => 71 | Hexahedron => 72 | Pyramid => 14 | Prism => 73 end.
(** io/cells.h:185-246: [None] as degree is -1 *)
Definition vtk_to_dolfinx (code : nat) : option (cell_type * option nat) :=
  match code with
  | 1 => Some (Point, None) | 3 => Some (Interval, Some 1) | 5 => Some (Triangle, Some 1) | 9 => Some (Quadrilateral, Some 1) | 10 => Some (Tetrahedron, Some 1)
  | 12 => Some (Hexahedron, Some 1) | 13 => Some (Prism, Some 1) | 14 => Some (Pyramid, Some 1)
  | 21 => Some (Interval, Some 2) | 22 => Some (Triangle, Some 2) | 23 => Some (Quadrilateral, Some 2) | 24 => Some (Tetrahedron, Some 2)
  | 25 => Some (Hexahedron, Some 2) | 26 => Some (Prism, Some 2) | 27 => Some (Pyramid, Some 2) | 35 => Some (Interval, Some 3)
  | 68 => Some (Interval, None) | 69 => Some (Triangle, None) | 70 => Some (Quadrilateral, None) | 71 => Some (Tetrahedron, None)
  | 72 => Some (Hexahedron, None) | 73 => Some (Prism, None) | 74 => Some (Pyramid, None)
  | _ => None
  end.

Record vtk_file (U : Type) := mk_file { v_points : list U; v_offsets : list nat; v_connectivity : list nat; v_types : list nat }.
Arguments mk_file {U}. Arguments v_points {U}. Arguments v_offsets {U}. Arguments v_connectivity {U}. Arguments v_types {U}.

(** ** Writing *)
Section Write.
(** Geometry index map, cell types with their numbers of nodes, cells *)
Variables (size_local offset_g : nat -> nat) (ghosts : nat -> list nat).
Variables (types : list (cell_type * nat)) (num_cells : nat -> nat -> nat) (dofmap : nat -> nat -> list (list nat)).
Definition typed : list (nat * (cell_type * nat)) := combine (seq 0 (length types)) types.
(** VTKHDF.h:74-92, one cell type *)
Definition type_topology (r i : nat) (t : cell_type) (nn : nat) : option (list nat) :=
  perm <- perm_vtk t (Z.of_nat nn) ;; inverse_perm <- transpose perm ;;
  l <- omap (fun j => row <- nth_error (dofmap r i) j ;;
         omap (fun k => x <- nth_error inverse_perm k ;; n <- nth_error row (Z.to_nat x) ;; node_index size_local offset_g ghosts r n) (seq 0 nn)) (seq 0 (num_cells r i)) ;;
  Some (concat l).
(** VTKHDF.h:67-100: for the offsets, all cells of the dof map are counted *)
Definition local_topology (r : nat) : option (list nat) :=
  l <- omap (fun x => let '(i, (t, nn)) := x in type_topology r i t nn) typed ;; Some (concat l).
Definition local_sizes (r : nat) : list nat := concat (map (fun x => let '(i, (t, nn)) := x in repeat nn (length (dofmap r i))) typed).
Definition local_codes (r : nat) : list nat := concat (map (fun x => let '(i, (t, nn)) := x in repeat (vtk_code t) (num_cells r i)) typed).
(** VTKHDF.h:106-131.  The range of the cell index map of type [i] *)
Definition cell_start (r i : nat) : nat := exscan (fun q => num_cells q i) r.
Definition start_position (r : nat) : nat := lsum (map (fun x => cell_start r (fst x)) typed).
Definition stop_position (r : nat) : nat := lsum (map (fun x => cell_start r (fst x) + num_cells r (fst x)) typed).
Definition topology_start (r : nat) : nat := lsum (map (fun x => snd (snd x) * cell_start r (fst x)) typed).
(** VTKHDF.h:102-104, 123-127: [std::partial_sum] in place, shifted *)
Definition local_offsets (r : nat) : list nat := map (Nat.add (topology_start r)) (tl (psums (local_sizes r))).
(** VTKHDF.h:30-155.  Each process writes as many offsets and codes as its range has, from the start of its arrays. *)
Definition write_mesh {U} (P : nat) (order : list nat) (fill : nat -> nat) (fillx : nat -> U) (x : nat -> list U) : option (vtk_file U) :=
  let total := start_position P in let total_topology := topology_start P in
  xs <- omap (fun r => slice (x r) 0 (size_local r * 3)) (seq 0 P) ;;
  points <- add_data_item order fillx (exscan size_local P) 3 (exscan size_local) (fun r => nth r xs []) ;;
  offs <- omap (fun r => slice (local_offsets r) 0 (stop_position r - start_position r)) (seq 0 P) ;;
  offsets <- add_data_item order fill (total + 1) 1 (fun r => start_position r + 1) (fun r => nth r offs []) ;;
  topo <- omap local_topology (seq 0 P) ;;
  connectivity <- add_data_item order fill total_topology 1 topology_start (fun r => nth r topo []) ;;
  cs <- omap (fun r => slice (local_codes r) 0 (stop_position r - start_position r)) (seq 0 P) ;;
  codes <- add_data_item order fill total 1 start_position (fun r => nth r cs []) ;;
  Some (mk_file points offsets connectivity codes).
End Write.

(** ** Reading *)
(** VTKHDF.h:343-357: VTK code and degree *)
Definition cell_kind (code num_nodes : nat) : option (nat * nat) :=
  '(t, d) <- vtk_to_dolfinx code ;;
  match d with
  | Some d => Some (code, d)
  | None => d <- cell_degree t (Z.of_nat num_nodes) ;; Some (code, Z.to_nat d)
  end.
(** std::ranges::sort and unique *)
Definition kind_ltb (a b : nat * nat) : bool := (fst a <? fst b) || ((fst a =? fst b) && (snd a <? snd b)).
Fixpoint insert_kind (x : nat * nat) (l : list (nat * nat)) : list (nat * nat) :=
  match l with [] => [x] | y :: l' => if kind_ltb x y then x :: l else if kind_ltb y x then y :: insert_kind x l' else l end.
Definition unique_kinds (l : list (nat * nat)) : list (nat * nat) := fold_right insert_kind [] l.
(** std::map::at *)
Fixpoint kind_index (x : nat * nat) (l : list (nat * nat)) : option nat :=
  match l with [] => None | y :: l => if (fst x =? fst y) && (snd x =? snd y) then Some 0 else i <- kind_index x l ;; Some (S i) end.

Section Read.
Context {U : Type}.
Variables (Q : nat) (F : vtk_file U).
(** VTKHDF.h:326-341 *)
Definition read_part (q : nat) : option (list nat * list nat) :=
  let '(a, b) := local_range (Z.of_nat q) (Z.of_nat (length (v_types F))) (Z.of_nat Q) in
  types <- slice (v_types F) (Z.to_nat a) (Z.to_nat b) ;; offsets <- slice (v_offsets F) (Z.to_nat a) (Z.to_nat b + 1) ;; Some (types, offsets).
Definition part_kinds (types offsets : list nat) : option (list (nat * nat)) :=
  omap (fun i => code <- nth_error types i ;; o1 <- nth_error offsets (S i) ;; o0 <- nth_error offsets i ;; cell_kind code (o1 - o0)) (seq 0 (length types)).
(** VTKHDF.h:358-394: the kinds of all processes *)
Definition all_kinds : option (list (nat * nat)) :=
  l <- omap (fun q => '(types, offsets) <- read_part q ;; kinds <- part_kinds types offsets ;; Some (unique_kinds kinds)) (seq 0 Q) ;;
  Some (unique_kinds (concat l)).
(** VTKHDF.h:396-406 and 444-466: the kinds, and for each of them the nodes of the cells of process [q] *)
Definition read_cells (q : nat) : option (list (cell_type * nat) * list (list nat)) :=
  kinds <- all_kinds ;; '(types, offsets) <- read_part q ;; own <- part_kinds types offsets ;;
  result <- omap (fun k => '(t, _) <- vtk_to_dolfinx (fst k) ;; Some (t, snd k)) kinds ;;
  front <- nth_error offsets 0 ;; back <- nth_error offsets (length offsets - 1) ;;
  topology <- slice (v_connectivity F) front back ;;
  cells <- ofold (fun cells j =>
      k <- nth_error own j ;; i <- kind_index k kinds ;; '(t, _) <- nth_error result i ;;
      o1 <- nth_error offsets (S j) ;; o0 <- nth_error offsets j ;;
      perm <- perm_vtk t (Z.of_nat (o1 - o0)) ;;
      row <- omap (fun k => x <- nth_error perm k ;; nth_error topology (Z.to_nat x + (o0 - front))) (seq 0 (o1 - o0)) ;;
      modify cells i (fun l => l ++ row))
    (seq 0 (length types)) (repeat [] (length kinds)) ;;
  Some (result, cells).
(** VTKHDF.h:408-442: [npoints] is the number of points of the file *)
Definition read_points (npoints gdim q : nat) : option (list U) :=
  let '(a, b) := local_range (Z.of_nat q) (Z.of_nat npoints) (Z.of_nat Q) in
  local <- slice (v_points F) (Z.to_nat a * 3) (Z.to_nat b * 3) ;;
  if 3 <? gdim then None else
  l <- omap (fun i => slice local (i * 3) (i * 3 + gdim)) (seq 0 (Z.to_nat b - Z.to_nat a)) ;; Some (concat l).
End Read.

(** ** Time steps *)
(** VTKHDF.h:205-300, for one choice of points or cells.  The file has the number of steps, the offsets and times of the steps, and the rows of all steps; [None] for no data set.
    [owned r]: the points or cells that process [r] owns, [data r] its data, of [width r] values for each; a division by zero is an error. *)
Record steps {U T} := mk_steps { n_steps : option nat; s_offsets : list nat; s_times : list T; s_data : option (nat * list U) }.
Arguments steps : clear implicits.
Definition width {U} (owned : nat -> nat) (data : nat -> list U) (r : nat) : option nat :=
  if owned r =? 0 then None else if length (data r) mod owned r =? 0 then Some (length (data r) / owned r) else None.
(** H5Dset_extent and the parts of the processes; all of them pass the same shape *)
Definition write_rows {U} (P : nat) (order : list nat) (fill : nat -> U) (old : list U) (rows w : nat) (first : nat -> nat) (data : nat -> list U) : option (list U) :=
  ofold (fun F r => write_slab F (first r * w) (data r)) order (old ++ map fill (seq 0 (rows * w))).
Definition write_data {U T} (P : nat) (order : list nat) (fill : nat -> U) (owned : nat -> nat) (data : nat -> list U) (time : T) (s : steps U T) : option (steps U T) :=
  ws <- omap (width owned data) (seq 0 P) ;;
  w <- nth_error ws 0 ;;
  if negb (forallb (Nat.eqb w) ws) then None else (* collective calls with different shapes *)
  offset <- (match n_steps s with
             | None => Some 0
             | Some _ => d <- s_data s ;; (if fst d =? 0 then None else Some (length (snd d) / fst d))
             end) ;;
  let nsteps := match n_steps s with None => 1 | Some n => S n end in
  match s_data s with
  | None =>
    rows <- write_rows P order fill [] (exscan owned P) w (exscan owned) data ;;
    Some (mk_steps U T (Some nsteps) (s_offsets s ++ [offset]) (s_times s ++ [time]) (Some (w, rows)))
  | Some (w0, old) =>
    if negb (w =? w0) then None else (* H5Dset_extent would change the width *)
    rows <- write_rows P order fill old (exscan owned P) w (fun r => length old / w + exscan owned r) data ;;
    Some (mk_steps U T (Some nsteps) (s_offsets s ++ [offset]) (s_times s ++ [time]) (Some (w, rows)))
  end.
