(** Model of the numbering of mesh entities on one rank: the first half of
    [compute_entities_by_key_matching] (cpp/dolfinx/mesh/topologycomputation.cpp).  Flat
    arrays with a fixed row length are lists of rows; a row of the entity list and its
    sorted key are kept together.  Threads are modelled as in Orient.v. *)
From Coq Require Import NArith.
From Verif Require Import Base Algo Ranges CellTypes Orient Sort.
Open Scope nat_scope.

(** The entries of [cell_lists]: cell type, vertices of the cells, [size_local] of the cell
    index map (owned cells come first). *)
Record cell_list := { cl_type : cell_type; cl_cells : list (list nat); cl_owned : nat }.

(** topologycomputation.cpp:736-744 *)
Definition type_entities (entity_type : cell_type) (dim : nat) (t : cell_type) : option (list nat) :=
  n <- cell_num_entities t dim ;;
  Some (filter (fun e => cell_eqb (cell_entity_type t dim e) entity_type) (seq 0 n)).
(** topologycomputation.cpp:84-247: one cell of [build_entity_list]; [off] is the first
    row of the cell list. *)
Definition fill_cell (l2g : nat -> option Z) (entity_type : cell_type) (e_vertices : list (list nat)) (ents : list nat) (cells : list (list nat))
    (off : nat) (rows : list (list nat * list nat)) (c : nat) : option (list (list nat * list nat)) :=
  vertices <- nth_error cells c ;;
  ofold (fun rows je =>
           ev <- nth_error e_vertices (snd je) ;;
           row <- build_entity l2g entity_type ev vertices ;;
           upd rows (off + c * length ents + fst je) row)
        (combine (seq 0 (length ents)) ents) rows.
(** topologycomputation.cpp:732-828: [entity_list] and [entity_list_sorted]; also returns
    [cell_type_entities] and [cell_type_offsets]. *)
Definition build_rows (l2g : nat -> option Z) (entity_type : cell_type) (dim : nat) (lists : list cell_list) (threads : nat) (sched : list nat -> list nat)
  : option (list (list nat * list nat) * list (list nat) * list nat) :=
  ents <- omap (fun cl => type_entities entity_type dim (cl_type cl)) lists ;;
  let offsets := psums (map (fun ce => length (cl_cells (fst ce)) * length (snd ce)) (combine lists ents)) in
  total <- nth_error offsets (length lists) ;;
  rows <- ofold (fun rows kcl =>
            es <- nth_error ents (fst kcl) ;; off <- nth_error offsets (fst kcl) ;;
            e_vertices <- get_entity_vertices (cl_type (snd kcl)) dim ;;
            ofold (fill_cell l2g entity_type e_vertices es (cl_cells (snd kcl)) off)
                  (sched (thread_cells (length (cl_cells (snd kcl))) threads)) rows)
          (combine (seq 0 (length lists)) lists) (repeat ([], []) total) ;;
  Some (rows, ents, offsets).

(** Comparison of vertex rows *)
Fixpoint row_eqb (a b : list nat) : bool :=
  match a, b with
  | [], [] => true
  | x :: a, y :: b => (x =? y) && row_eqb a b
  | _, _ => false
  end.
(** topologycomputation.cpp:876-901; [keys] are the rows of the sorted key array, and the
    fuel is at least the length of [order]. *)
Fixpoint number (fuel : nat) (keys : list (list nat)) (order : list nat) (index : list nat) (count : nat) : option (list nat * nat) :=
  match order with
  | [] => Some (index, count)
  | idx0 :: _ =>
    match fuel with
    | 0 => None
    | S fuel =>
      let n := prefix_len (fun idx => row_eqb (nth idx0 keys []) (nth idx keys [])) order in
      index <- ofold (fun ix idx => upd ix idx count) (firstn n order) index ;;
      number fuel keys (skipn n order) index (S count)
    end
  end.
(** topologycomputation.cpp:830-902.  One thread: radix sort of the columns; several:
    [boost::sort::sample_sort] with the lexicographic comparison, [tsort]. *)
Definition number_entities (nv : nat) (keys : list (list nat)) (threads : nat) (tsort : list (list nat) -> list nat) : option (list nat * nat) :=
  order <- (if threads =? 1 then sort_by_perm_cols 32 16 (map (fun k => map (fun row => Z.of_nat (nth k row 0)) keys) (seq 0 nv))
            else Some (tsort keys)) ;;
  number (length order) keys order (repeat 0 (length keys)) 0.

(** topologycomputation.cpp:904-928: 0 for entities of owned cells, 1 for the others *)
Definition ghost_status (lists : list cell_list) (ents : list (list nat)) (offsets index : list nat) (count : nat) : option (list nat) :=
  ofold (fun st kcl =>
           es <- nth_error ents (fst kcl) ;; off <- nth_error offsets (fst kcl) ;;
           ofold (fun st i => idx <- nth_error index (i + off) ;; upd st idx 0) (seq 0 (cl_owned (snd kcl) * length es)) st)
        (combine (seq 0 (length lists)) lists) (repeat 1 count).

(** The part of [compute_entities_by_key_matching] before communication: the entity list,
    [cell_type_entities], [cell_type_offsets], the initial numbering, the number of
    entities and the ghost status. *)
Definition local_entities (l2g : nat -> option Z) (entity_type : cell_type) (dim : nat) (lists : list cell_list) (threads : nat)
    (sched : list nat -> list nat) (tsort : list (list nat) -> list nat) : option (list (list nat) * list (list nat) * list nat * list nat * nat * list nat) :=
  if dim =? 0 then None
  else
    '(rows, ents, offsets) <- build_rows l2g entity_type dim lists threads sched ;;
    '(index, count) <- number_entities (num_cell_vertices entity_type) (map snd rows) threads tsort ;;
    st <- ghost_status lists ents offsets index count ;;
    Some (map fst rows, ents, offsets, index, count, st).
