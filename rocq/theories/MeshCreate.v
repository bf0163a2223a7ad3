(** Model of the distribution of cells and coordinates in mesh::create_mesh
    (cpp/dolfinx/mesh/utils.h) and of mesh::create_geometry (cpp/dolfinx/mesh/Geometry.h).

    Simplifications: the destinations from the partitioner, the reordering of cells from
    [reorder_fn] and the (permuted) dofmaps of the geometry from build_dofmap_data are
    parameters of every rank; an adjacency list is the list of its rows (theorem C01); the
    radix sort is a sort (C03); coordinates are of any type [T] with a zero.  Exceptions,
    failing [assert]s and accesses outside arrays are [None]. *)
From Verif Require Import Base Algo World IndexMap PostOffice Distribute GhostIdx.
Open Scope nat_scope.

(** [copy_n] of a block to position [pos] *)
Definition put {A} (l : list A) (pos : nat) (b : list A) : option (list A) :=
  if pos + length b <=? length l then Some (firstn pos l ++ b ++ skipn (pos + length b) l) else None.

(** mesh/utils.h:56-72 *)
Definition reorder_list {A} (list_ : list A) (nodemap : list nat) : option (list A) :=
  if length nodemap =? 0 then Some list_
  else if negb (length list_ mod length nodemap =? 0) then None
  else
    let degree := length list_ / length nodemap in
    ofold (fun l n => links_old <- slice list_ (n * degree) (n * degree + degree) ;;
                      m <- nth_error nodemap n ;; put l (m * degree) links_old)
          (seq 0 (length nodemap)) list_.
(** mesh/utils.h:303-308: the rows in front are reordered. *)
Definition reorder_cells (num_nodes : nat) (cells : list Z) (remap : list nat) : option (list Z) :=
  let n := length remap * num_nodes in
  front <- slice cells 0 n ;; front <- reorder_list front remap ;; Some (front ++ skipn n cells).
(** mesh/utils.h:290-300 *)
Definition reorder_original (num_ghosts : nat) (orig_idx : list Z) (remap : list nat) : option (list Z) :=
  if num_ghosts <=? length orig_idx then
    let n := length orig_idx - num_ghosts in
    ofold (fun l j => m <- nth_error remap j ;; o <- nth_error orig_idx j ;; upd l m o)
          (seq 0 (length remap)) (repeat 0%Z n ++ skipn n orig_idx)
  else None.

(** [std::ranges::is_sorted] *)
Fixpoint is_sorted (l : list Z) : bool :=
  match l with
  | a :: t => match t with b :: _ => (a <=? b)%Z && is_sorted t | [] => true end
  | [] => true
  end.

Section Mesh.
Variables (P : nat) (nbx nbx0 nbx1 : (nat -> list nat) -> nat -> list nat).
(** Number of cell types, nodes per cell of each type, cells of each type on each rank. *)
Variables (types : nat) (width : nat -> nat) (cells : nat -> nat -> list Z).
Variables (dest : nat -> list (list nat)) (remap : nat -> nat -> list nat).

(** mesh/utils.h:1125-1147: destinations of the cells of type [t] on rank [q]. *)
Definition num_cells (t q : nat) : nat := length (cells t q) / width t.
Definition cell_offset (t q : nat) : nat := lsum (map (fun t' => num_cells t' q) (seq 0 t)).
Definition dest_type (t q : nat) : option (list (list nat)) :=
  if negb (length (cells t q) mod width t =? 0) then None
  else slice (dest q) (cell_offset t q) (cell_offset t q + num_cells t q).
Definition dest_rows (t q : nat) : list (list nat) := match dest_type t q with Some d => d | None => [] end.

(** mesh/utils.h:1149-1155, 1195-1199: the cells of type [t] on rank [r], their original
    indices and the owners of the ghosts. *)
Definition mesh_cells (t r : nat) : option (list Z * (list Z * list Z)) :=
  _ <- dest_type t r ;;
  '(cells1, (_, (original_idx1, ghost_owners))) <-
    distribute_fixed P nbx (cells t) (fun _ => width t) (dest_rows t) r ;;
  cells1' <- reorder_cells (width t) cells1 (remap t r) ;;
  original_idx <- reorder_original (length ghost_owners) original_idx1 (remap t r) ;;
  Some (cells1', (original_idx, ghost_owners)).

(** mesh/utils.h:1238-1248: the nodes of the cells on rank [r], and without repetition. *)
Definition nodes2 (r : nat) : option (list Z) :=
  cs <- omap (fun t => mesh_cells t r) (seq 0 types) ;; Some (concat (map fst cs)).
Definition nodes1 (l : list Z) : list Z := unique Z.eqb (isort Z.leb l).

Section Geometry.
Context {T : Type} (zero : T).
(** Geometry.h:243-314, without the construction of the dofmaps (248-280). *)
Definition create_geometry (dofmaps : list (list nat)) (nodes xdofs : list Z) (x : list T) (dim : nat)
  : option (list T * list Z) :=
  if negb (is_sorted nodes) then None
  else
    l2g <- compute_local_to_global xdofs (concat dofmaps) ;;
    l2l <- compute_local_to_local l2g nodes ;;
    igi <- omap (nth_error nodes) l2l ;;
    if negb (length x mod dim =? 0) then None
    else
      let shape0 := length x / dim in
      xg <- ofold (fun xg i => p <- nth_error l2l i ;; row <- slice x (dim * p) (dim * p + dim) ;; put xg (3 * i) row)
                  (seq 0 shape0) (repeat zero (3 * shape0)) ;;
      Some (xg, igi).

(** mesh/utils.h:1238-1255: [x q] are the rows of coordinates on rank [q], for the ranks of
    [commg]. *)
Definition mesh_geometry (commg : list nat) (x : nat -> list (list T)) (dim : nat) (dofmaps : nat -> list (list nat)) (r : nat)
  : option (list T * list Z) :=
  n2 <- nodes2 r ;;
  coords <- distribute_data (repeat zero dim) P nbx0 nbx1 commg x
              (fun q => match nodes2 q with Some l => map Z.to_nat (nodes1 l) | None => [] end) r ;;
  create_geometry (dofmaps r) (nodes1 n2) n2 (concat coords) dim.
End Geometry.
End Mesh.
