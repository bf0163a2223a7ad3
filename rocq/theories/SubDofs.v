(** Model of cpp/dolfinx/fem/ElementDofLayout.cpp (sub-layouts) and of the sub-dofmaps of
    cpp/dolfinx/fem/DofMap.cpp.  A dofmap array is a list of rows, one for each cell.
    Exceptions, failing asserts and accesses out of bounds are [None]. *)
From Verif Require Import Base Algo Nbx World IndexMap SubMap CellTypes DofBuilder.
Open Scope nat_scope.

(** ElementDofLayout.h:124-147: [_block_size], ([_entity_dofs], [_num_dofs]), [_parent_map],
    [_sub_dofmaps] *)
Inductive lay := Lay (bs : nat) (core : layout) (pmap : list nat) (subs : list lay).
Definition lay_bs (l : lay) : nat := match l with Lay b _ _ _ => b end.
Definition lay_core (l : lay) : layout := match l with Lay _ c _ _ => c end.
Definition lay_pmap (l : lay) : list nat := match l with Lay _ _ p _ => p end.
Definition lay_subs (l : lay) : list lay := match l with Lay _ _ _ s => s end.
Definition lay_width (l : lay) : nat := ly_num (lay_core l) * lay_bs l.

(** ElementDofLayout.cpp:84-95.  Later components also index the sub-layouts of the root. *)
Definition sub_layout (l : lay) (component : list nat) : option lay :=
  match component with
  | [] => None
  | c :: rest => current <- nth_error (lay_subs l) c ;; ofold (fun _ i => nth_error (lay_subs l) i) rest current
  end.
(** ElementDofLayout.cpp:97-121 *)
Definition sub_view (l : lay) (component : list nat) : option (list nat) :=
  '(_, dof_list) <- ofold (fun st i =>
     let '(current, dof_list) := st in
     if length (lay_subs current) <=? i then None
     else
       current <- nth_error (lay_subs l) i ;;
       dof_list <- omap (fun j => p <- nth_error (lay_pmap current) j ;; nth_error dof_list p) (seq 0 (lay_width current)) ;;
       Some (current, dof_list)) component (l, seq 0 (lay_width l)) ;;
  Some dof_list.

(** DofMap.h: [_element_dof_layout], [_index_map_bs], [_dofmap], [_bs] *)
Record dmap := { dp_lay : lay; dp_ibs : nat; dp_rows : list (list nat); dp_bs : nat }.
(** DofMap.cpp:166-209 *)
Definition extract_sub_dofmap (d : dmap) (component : list nat) : option dmap :=
  match component with
  | [] => None
  | _ =>
    view <- sub_view (dp_lay d) component ;;
    rows <- omap (fun row => omap (fun p => x <- nth_error row (p / dp_bs d) ;; Some (dp_bs d * x + p mod dp_bs d)) view) (dp_rows d) ;;
    l <- sub_layout (dp_lay d) component ;;
    Some {| dp_lay := l; dp_ibs := dp_ibs d; dp_rows := rows; dp_bs := 1 |}
  end.

(** DofMap.cpp:249-270: [rows] is the new dofmap with block size [bs] and [size] dofs, [view] the
    old one *)
Definition collapsed_map (bs size : nat) (rows view : list (list nat)) : option (list nat) :=
  ofold (fun m rv =>
    ofold (fun m ix =>
      ofold (fun m k => v <- nth_error (snd rv) (bs * fst ix + k) ;; upd m (bs * snd ix + k) v) (seq 0 bs) m)
      (combine (seq 0 (length (fst rv))) (fst rv)) m)
    (combine rows view) (repeat 0 size).

Section Collapse.
Variables (P : nat) (maps : nat -> imap) (ibs : nat) (views : nat -> dmap).
(** DofMap.cpp:40-46, 56-76: the blocks of the dofs of the view *)
Definition dofs_view (q : nat) : list nat := sort_uniq (concat (dp_rows (views q))).
Definition view_blocks (q : nat) : list nat := map (fun d => d / ibs) (dofs_view q).
(** DofMap.cpp:28-115; an entry -1 in the result is [None]. *)
Definition build_collapsed_dofmap (q : nat) : option (imap * list (list nat)) :=
  if 1 <? lay_bs (dp_lay (views q)) then None
  else
    '(m, s2i) <- create_sub_index_map P maps view_blocks true false q ;;
    let size := match dofs_view q with [] => 0 | _ => last (dofs_view q) 0 + ibs end in
    o2n <- ofold (fun o2n ni => ofold (fun o2n k => upd o2n (snd ni * ibs + k) (Some (fst ni))) (seq 0 ibs) o2n)
                 (combine (seq 0 (length s2i)) s2i) (repeat None size) ;;
    rows <- omap (omap (fun d => x <- nth_error o2n d ;; x)) (dp_rows (views q)) ;;
    Some (m, rows).
(** DofMap.cpp:211-273 when the new dofmap is not built from scratch *)
Definition collapse_view (q : nat) : option (imap * list (list nat) * list nat) :=
  '(m, rows) <- build_collapsed_dofmap q ;;
  cmap <- collapsed_map 1 (map_size m) rows (dp_rows (views q)) ;;
  Some (m, rows, cmap).
End Collapse.

(** DofMap.cpp:211-273 when the layout of the view has blocks but the map has none: a new dofmap
    is built for the layout (topologies with one cell type) *)
Definition collapse_blocked P nbx tps (view : nat -> dmap) reorder order (q : nat) : option (imap * list (list nat) * list nat) :=
  let l := dp_lay (view q) in
  '(m, rowss) <- build_dofmap_data P nbx tps [lay_core l] reorder order q ;;
  rows <- nth_error rowss 0 ;;
  cmap <- collapsed_map (lay_bs l) (map_size m * lay_bs l) rows (dp_rows (view q)) ;;
  Some (m, rows, cmap).

(** utils.cpp:57-72: permutations of the dofs of each cell *)
Definition permute_rows (perm : nat -> list nat -> list nat) (rows : list (list nat)) : list (list nat) :=
  map (fun cr => perm (fst cr) (snd cr)) (combine (seq 0 (length rows)) rows).
