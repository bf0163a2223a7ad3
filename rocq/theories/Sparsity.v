(** Model of cpp/dolfinx/la/SparsityPattern.{h,cpp}.

    Simplifications: indices are naturals; the two insertion cache vectors, always
    pushed to together, are one list of (row, column) pairs; a (row, column, owner)
    triplet in a message is one item instead of three consecutive integers; the hash
    map from global ghost column to local column is the position of the column in the
    list of ghost columns (the map is filled in list order and never overwritten). *)
From Verif Require Import Base Algo World IndexMap.

(** The data available after finalisation (SparsityPattern.h private members). *)
Record spat := mkSP {
  sp_edges : list nat; sp_offsets : list nat; sp_offdiag : list nat;
  sp_col_ghosts : list nat; sp_col_owners : list nat }.

(** A pattern on one rank; [_offsets.empty()] is [pt_final = None]. *)
Record pattern := mkPat { pt_cache : list (nat * nat); pt_final : option spat }.
Definition pt_empty : pattern := mkPat [] None.

(** SparsityPattern.cpp:194-205 *)
Definition sp_insert (p : pattern) (row col : nat) : option pattern :=
  match pt_final p with
  | Some _ => None
  | None => Some (mkPat (pt_cache p ++ [(row, col)]) None)
  end.

(** SparsityPattern.cpp:207-227 *)
Definition sp_insert_block (p : pattern) (rows cols : list nat) : option pattern :=
  match pt_final p with
  | Some _ => None
  | None => Some (mkPat (pt_cache p ++ concat (map (fun row => map (pair row) cols) rows)) None)
  end.

(** SparsityPattern.cpp:229-240 *)
Definition sp_insert_diagonal (p : pattern) (rows : list nat) : option pattern :=
  match pt_final p with
  | Some _ => None
  | None => Some (mkPat (pt_cache p ++ combine rows rows) None)
  end.

(** A sequence of insertion calls on one rank. *)
Inductive sp_op := InsertEntry (row col : nat) | InsertBlock (rows cols : list nat) | InsertDiagonal (rows : list nat).
Definition sp_apply (p : pattern) (op : sp_op) : option pattern :=
  match op with
  | InsertEntry row col => sp_insert p row col
  | InsertBlock rows cols => sp_insert_block p rows cols
  | InsertDiagonal rows => sp_insert_diagonal p rows
  end.
Definition sp_run (ops : list sp_op) (p : pattern) : option pattern := ofold sp_apply ops p.

(** SparsityPattern.cpp:28-44 *)
Definition bucket_by_row (entries : list (nat * nat)) (num_rows : nat) : option (list nat * list nat) :=
  num <- count_keys num_rows (map fst entries) ;;
  let offsets := psums num in
  '(_, bucketed) <- ofold place entries (removelast offsets, repeat 0 (length entries)) ;;
  Some (offsets, bucketed).

(** Pushing a received column, SparsityPattern.cpp:399-424. *)
Record recv_state := mkRecv { rv_ghosts : list nat; rv_owners : list nat; rv_entries : list (nat * nat) }.
Definition recv_step (m0 m1 : imap) (st : recv_state) (t : nat * (nat * nat)) : option recv_state :=
  let '(row, (col, owner)) := t in
  if row <? im_lo m0 then None else
  let row_local := row - im_lo m0 in
  if (im_lo m1 <=? col) && (col <? im_hi m1) then
    Some (mkRecv (rv_ghosts st) (rv_owners st) (rv_entries st ++ [(row_local, col - im_lo m1)]))
  else
    match index_in col (rv_ghosts st) with
    | Some k => Some (mkRecv (rv_ghosts st) (rv_owners st) (rv_entries st ++ [(row_local, size_local m1 + k)]))
    | None => Some (mkRecv (rv_ghosts st ++ [col]) (rv_owners st ++ [owner])
                     (rv_entries st ++ [(row_local, size_local m1 + length (rv_ghosts st))]))
    end.

(** SparsityPattern.cpp:451-458 and 461-468: record column [c] for row [i] unless it was. *)
Definition stamp_col (i : nat) (st : list (option nat) * list nat) (c : nat)
  : option (list (option nat) * list nat) :=
  let '(last_seen, row) := st in
  s <- nth_error last_seen c ;;
  match s with
  | Some j => if j =? i then Some (last_seen, row) else l' <- upd last_seen c (Some i) ;; Some (l', row ++ [c])
  | None => l' <- upd last_seen c (Some i) ;; Some (l', row ++ [c])
  end.

(** SparsityPattern.cpp:448-479: one row. *)
Record row_state := mkRows { rw_seen : list (option nat); rw_edges : list nat; rw_offsets : list nat; rw_offdiag : list nat }.
Definition row_step (local_size0 local_size1 : nat) (cache recv : list nat * list nat)
    (st : row_state) (i : nat) : option row_state :=
  c <- slice_at (snd cache) (fst cache) i ;;
  s1 <- ofold (stamp_col i) c (rw_seen st, []) ;;
  s2 <- (if i <? local_size0 then
           d <- slice_at (snd recv) (fst recv) i ;; ofold (stamp_col i) d s1
         else Some s1) ;;
  let row := isort Nat.leb (snd s2) in
  Some (mkRows (fst s2) (rw_edges st ++ row) (rw_offsets st ++ [last (rw_offsets st) 0 + length row])
               (rw_offdiag st ++ [lower_bound row local_size1])).

Section Finalize.
Variables (P : nat) (nbx : (nat -> list nat) -> nat -> list nat).
Variables (maps0 maps1 : nat -> imap).     (* row and column index maps *)
Variable patterns : nat -> pattern.

(** SparsityPattern.cpp:341-352: the triplet for one cached column of a ghost row. *)
Definition triplet (rank ghost_row c : nat) : option (nat * (nat * nat)) :=
  let m1 := maps1 rank in
  if c <? size_local m1 then Some (ghost_row, (c + im_lo m1, rank))
  else g <- nth_error (im_ghosts m1) (c - size_local m1) ;;
       o <- nth_error (im_owners m1) (c - size_local m1) ;;
       Some (ghost_row, (g, o)).

(** SparsityPattern.cpp:286-356: the send buffer. *)
Definition ghost_rows_send (rank : nat) : option (sbuf (nat * (nat * nat))) :=
  let m0 := maps0 rank in
  if pt_final (patterns rank) then None else
  '(cache_offsets, cache_cols) <- bucket_by_row (pt_cache (patterns rank)) (size_local m0 + num_ghosts m0) ;;
  neighbour_rank <- omap (find_sorted (im_src m0)) (im_owners m0) ;;
  items <- omap (fun i =>
             n <- nth_error neighbour_rank i ;;
             g <- nth_error (im_ghosts m0) i ;;
             cols <- slice_at cache_cols cache_offsets (size_local m0 + i) ;;
             ts <- omap (triplet rank g) cols ;;
             Some (n, ts)) (seq 0 (length (im_owners m0))) ;;
  send_sizes <- ofold (fun w nt => modify w (fst nt) (fun x => x + length (snd nt))) items
                  (repeat 0 (length (im_src m0))) ;;
  let send_disp := psums send_sizes in
  '(_, ghost_data) <- ofold place (concat (map (fun nt => map (pair (fst nt)) (snd nt)) items))
                       (send_disp, repeat (0, (0, 0)) (last send_disp 0)) ;;
  Some (ghost_data, (send_sizes, send_disp)).

(** SparsityPattern.cpp:264-491 except the new column map. *)
Definition finalize_local (rank : nat) : option spat :=
  let m0 := maps0 rank in
  let m1 := maps1 rank in
  if pt_final (patterns rank) then None else
  let num_rows0 := size_local m0 + num_ghosts m0 in
  cache <- bucket_by_row (pt_cache (patterns rank)) num_rows0 ;;
  '(ghost_data_in, _) <- exchange P (fun q => im_dest (maps0 q)) (fun q => im_src (maps0 q)) ghost_rows_send rank ;;
  st <- ofold (recv_step m0 m1) ghost_data_in (mkRecv (im_ghosts m1) (im_owners m1) []) ;;
  recv <- bucket_by_row (rv_entries st) (size_local m0) ;;
  rows <- ofold (row_step (size_local m0) (size_local m1) cache recv) (seq 0 num_rows0)
            (mkRows (repeat None (size_local m1 + length (rv_ghosts st))) [] [0] []) ;;
  Some (mkSP (rw_edges rows) (rw_offsets rows) (rw_offdiag rows) (rv_ghosts st) (rv_owners st)).

(** SparsityPattern.cpp:487-490: the new column index map. *)
Definition finalize_map (rank : nat) : option imap :=
  imap_make P nbx (fun q => size_local (maps1 q))
    (fun q => match finalize_local q with Some f => sp_col_ghosts f | None => [] end)
    (fun q => match finalize_local q with Some f => sp_col_owners f | None => [] end) rank.

(** The pattern and the column map after the collective call. *)
Definition sp_finalize (rank : nat) : option (pattern * imap) :=
  f <- finalize_local rank ;; m <- finalize_map rank ;; Some (mkPat [] (Some f), m).
End Finalize.

(** Accessors: all throw before finalisation.  SparsityPattern.cpp:248-262, 493-527.
    The column map [m1] is the one set by finalisation. *)
Definition sp_column_indices (p : pattern) (m1 : imap) : option (list nat) :=
  f <- pt_final p ;; Some (seq (im_lo m1) (size_local m1) ++ sp_col_ghosts f).
Definition sp_num_nonzeros (p : pattern) : option nat :=
  f <- pt_final p ;; Some (length (sp_edges f)).
Definition sp_nnz_diag (p : pattern) (row : nat) : option nat :=
  f <- pt_final p ;; nth_error (sp_offdiag f) row.
Definition sp_nnz_off_diag (p : pattern) (row : nat) : option nat :=
  f <- pt_final p ;;
  a <- nth_error (sp_offsets f) row ;; b <- nth_error (sp_offsets f) (S row) ;;
  d <- nth_error (sp_offdiag f) row ;; Some (b - a - d).
Definition sp_graph (p : pattern) : option (list nat * list nat) :=
  f <- pt_final p ;; Some (sp_edges f, sp_offsets f).
Definition sp_off_diagonal_offsets (p : pattern) : option (list nat) :=
  f <- pt_final p ;; Some (sp_offdiag f).
