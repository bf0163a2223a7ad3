(** Model of the constructor of cpp/dolfinx/la/SparsityPattern.cpp that makes one pattern of
    a matrix of patterns.

    Simplifications: those of Sparsity.v and SubMap.v; reserving memory is left out; a null
    pointer to a pattern is [None]. *)
From Verif Require Import Base Algo World IndexMap SubMap MatrixCSR Sparsity.
Open Scope nat_scope.

Section StackPattern.
Variables (P : nat) (nbx : (nat -> list nat) -> nat -> list nat).

(** SparsityPattern.cpp:74-85: the offsets are pushed in the loop. *)
Definition stack_ghost_offsets (gs : list (list nat)) : list nat := fold_left (fun o g => o ++ [last o 0 + length g]) gs [0].
(** SparsityPattern.cpp:66-91 for rows or for columns: local offsets, offsets of ghosts, ghosts
    and their owners *)
Definition stack_data (Ms : list ((nat -> imap) * nat)) (r : nat) : option (list nat * list nat * list nat * list nat) :=
  '(_, loff, gs, os) <- stack_index_maps P Ms r ;; Some (loff, stack_ghost_offsets gs, concat gs, concat os).
(** SparsityPattern.cpp:94-97 *)
Definition stack_map (Ms : list ((nat -> imap) * nat)) (r : nat) : option imap :=
  imap_make P nbx (fun q => match stack_data Ms q with Some (loff, _, _, _) => last loff 0 | None => 0 end)
    (fun q => match stack_data Ms q with Some (_, _, ghosts, _) => ghosts | None => [] end)
    (fun q => match stack_data Ms q with Some (_, _, _, owners) => owners | None => [] end) r.

(** SparsityPattern.cpp:150-154, 176-180 *)
Definition stack_col (bs_dof1 num_cols_local : nat) (loff1 goff1 : list nat) (col c_old : nat) : option nat :=
  if c_old <? num_cols_local then o <- nth_error loff1 col ;; Some (bs_dof1 * c_old + o)
  else o <- nth_error goff1 col ;; Some (bs_dof1 * (c_old - num_cols_local) + last loff1 0 + o).
(** SparsityPattern.cpp:156-163, 181-188 *)
Definition stack_pairs (bs_dof0 bs_dof1 r_new c_new : nat) : list (nat * nat) :=
  concat (map (fun k0 => map (fun k1 => (r_new + k0, c_new + k1)) (seq 0 bs_dof1)) (seq 0 bs_dof0)).
(** SparsityPattern.cpp:124-190: the entries of one block *)
Definition stack_block (bs_dof0 bs_dof1 : nat) (map_row map_col : imap) (num_rows_local_new : nat) (loff0 goff0 loff1 goff1 : list nat) (row col : nat) (p : pattern)
  : option (list (nat * nat)) :=
  if pt_final p then None else
  '(p_offsets, p_cols) <- bucket_by_row (pt_cache p) (size_local map_row + num_ghosts map_row) ;;
  owned <- omap (fun i =>
      cols <- slice_at p_cols p_offsets i ;;
      es <- omap (fun c_old => o <- nth_error loff0 row ;; c_new <- stack_col bs_dof1 (size_local map_col) loff1 goff1 col c_old ;;
                               Some (stack_pairs bs_dof0 bs_dof1 (bs_dof0 * i + o) c_new)) cols ;;
      Some (concat es)) (seq 0 (size_local map_row)) ;;
  unowned <- omap (fun i =>
      cols <- slice_at p_cols p_offsets (size_local map_row + i) ;;
      es <- omap (fun c_old => o <- nth_error goff0 row ;; c_new <- stack_col bs_dof1 (size_local map_col) loff1 goff1 col c_old ;;
                               Some (stack_pairs bs_dof0 bs_dof1 (num_rows_local_new + (bs_dof0 * i + o)) c_new)) cols ;;
      Some (concat es)) (seq 0 (num_ghosts map_row)) ;;
  Some (concat owned ++ concat unowned).

(** SparsityPattern.cpp:54-192; the new pattern and its index maps *)
Definition stack_pattern (Ms0 Ms1 : list ((nat -> imap) * nat)) (bs0 bs1 : list nat) (patterns : nat -> list (list (option pattern))) (r : nat)
  : option (pattern * imap * imap) :=
  '(loff0, goff0, _, _) <- stack_data Ms0 r ;;
  '(loff1, goff1, _, _) <- stack_data Ms1 r ;;
  m0 <- stack_map Ms0 r ;; m1 <- stack_map Ms1 r ;;
  cache <- ofold (fun cache '(row, ps) =>
    mr <- nth_error Ms0 row ;;
    ofold (fun cache '(col, p) =>
      mc <- nth_error Ms1 col ;;
      match p with
      | None => Some cache
      | Some p =>
          b0 <- nth_error bs0 row ;; b1 <- nth_error bs1 col ;;
          es <- stack_block b0 b1 (fst mr r) (fst mc r) (size_local m0) loff0 goff0 loff1 goff1 row col p ;;
          Some (cache ++ es)
      end) (enum ps) cache) (enum (patterns r)) [] ;;
  Some (mkPat cache None, m0, m1).
End StackPattern.
