(** Model of cpp/dolfinx/la/mattrans.h.

    Simplifications: the row index, the column index and the values of an entry are one
    message item (the code sends three arrays with the same counts and displacements);
    indices are naturals; block sizes are run-time values; a failing [assert] is
    [None].  The loops that count entries and the loops that use them visit the same
    entries and are written with one list of entries. *)
From Verif Require Import Base Algo World IndexMap MatrixCSR MatrixPar Collectives.

Section Local.
Context {T : Type}.
Variables (bs0 bs1 : nat).

(** mattrans.h:84-90, 94-97: write block [k] of [src], transposed, to block [p] of [dst]. *)
Definition put_block (src : list T) (k : nat) (dst : list T) (p : nat) : option (list T) :=
  ofold (fun dst k0 =>
    ofold (fun dst k1 =>
      v <- nth_error src (k * bs0 * bs1 + k0 * bs1 + k1) ;;
      upd dst (p * bs0 * bs1 + k1 * bs0 + k0) v) (seq 0 bs1) dst) (seq 0 bs0) dst.

(** The entries [for i, for k in [row_begin i, row_end i)] as (i, k) pairs. *)
Definition loop_entries (n_row : nat) (row_begin row_end : list nat) : option (list (nat * nat)) :=
  per <- omap (fun i => a <- nth_error row_begin i ;; b <- nth_error row_end i ;;
                        Some (map (pair i) (seq a (b - a)))) (seq 0 n_row) ;;
  Some (concat per).

(** [cursor[row]++], [cols[pos] = c], values transposed to block [pos]. *)
Definition put_entry (src : list T) (st : list nat * (list nat * list T)) (row c k : nat)
  : option (list nat * (list nat * list T)) :=
  let '(cursor, (colsT, valsT)) := st in
  p <- nth_error cursor row ;;
  cursor' <- upd cursor row (S p) ;;
  colsT' <- upd colsT p c ;;
  valsT' <- put_block src k valsT p ;;
  Some (cursor', (colsT', valsT')).

(** mattrans.h:41-104: columns, row pointers and values of the transposed diagonal block. *)
Definition local_transpose (zero : T) (n_row n_col : nat) (A : csr T) (offs : list nat)
  : option (list nat * (list nat * list T)) :=
  es <- loop_entries n_row (mt_rp A) offs ;;
  cs <- omap (fun ik : nat * nat => nth_error (mt_cols A) (snd ik)) es ;;
  row_count <- count_keys n_col cs ;;
  let row_offsetT := psums row_count in
  let total_nnz := last row_offsetT 0 in
  '(_, (colsT, valsT)) <- ofold (fun st ik => col <- nth_error (mt_cols A) (snd ik) ;;
                                              put_entry (mt_data A) st col (fst ik) (snd ik)) es
      (row_offsetT, (repeat 0 total_nnz, repeat zero (total_nnz * bs0 * bs1))) ;;
  Some (colsT, (row_offsetT, valsT)).
End Local.

(** [std::copy(l.begin(), l.end(), std::next(dst.begin(), p))] *)
Definition copy_at {A} (dst : list A) (p : nat) (l : list A) : option (list A) :=
  if p + length l <=? length dst then Some (firstn p dst ++ l ++ skipn (p + length l) dst) else None.

Section Transpose.
Context {T : Type}.
Variable zero : T.
Variables (P : nat) (nbx : (nat -> list nat) -> nat -> list nat).
Variables (maps0 maps1 : nat -> imap).
Variable mats : nat -> csr T.
Variable offs : nat -> list nat.

(** mattrans.h:152-163: no neighbours, or one rank. *)
Definition isolated (m : imap) : bool := match im_src m, im_dest m with [], [] => true | _, _ => false end.
Definition fast_path (r : nat) : bool := (P =? 1) || isolated (maps1 r).

(** The collective operations on the communicator, mattrans.h:164-182 and 203-423. *)
Definition transpose_calls (r : nat) : list coll :=
  (if fast_path r then imap_plain_calls ++ imap_plain_calls
   else [CDistGraph] ++ imap_make_calls P ++ imap_plain_calls) ++ matrix_calls.

(** mattrans.h:184-264: entries in ghost columns, sent to the owner of the column as
    (global row, (global column, values)). *)
Definition trans_send (q : nat) : option (sbuf (nat * (nat * list T))) :=
  let '(m0, m1, A) := (maps0 q, maps1 q, mats q) in
  let nbs := mt_bs0 A * mt_bs1 A in
  ghost_col_owners <- omap (find_sorted (im_src m1)) (im_owners m1) ;;
  es <- loop_entries (size_local m0) (offs q) (tl (mt_rp A)) ;;
  items <- omap (fun ik : nat * nat =>
             c <- nth_error (mt_cols A) (snd ik) ;;
             if c <? size_local m1 then None else
             let j := c - size_local m1 in
             s <- nth_error ghost_col_owners j ;;
             g <- nth_error (im_ghosts m1) j ;;
             v <- slice (mt_data A) (snd ik * nbs) (snd ik * nbs + nbs) ;;
             Some (s, (im_lo m0 + fst ik, (g, v)))) es ;;
  send_count <- count_keys (length (im_src m1)) (map fst items) ;;
  let send_disp := psums send_count in
  '(_, buf) <- ofold place items (send_disp, repeat (0, (0, [])) (last send_disp 0)) ;;
  Some (buf, (send_count, send_disp)).

Definition trans_recv (r : nat) : option (list (nat * (nat * list T)) * list nat) :=
  exchange P (fun q => im_dest (maps1 q)) (fun q => im_src (maps1 q)) trans_send r.

(** mattrans.h:325-359: ghosts of the new column map with their owners. *)
Definition trans_ghosts (r : nat) : option (list (nat * nat)) :=
  '(arr, recv_count) <- trans_recv r ;;
  blocks <- omap (fun p => b <- slice_at arr (psums recv_count) p ;; d <- nth_error (im_dest (maps1 r)) p ;;
                           if forallb (fun it : nat * (nat * list T) => (fst it <? im_lo (maps0 r)) || (im_hi (maps0 r) <=? fst it)) b
                           then Some (map (fun it : nat * (nat * list T) => (fst it, d)) b) else None)
                 (seq 0 (length (im_dest (maps1 r)))) ;;
  Some (sort_uniq_pairs (concat blocks)).

(** mattrans.h:361-362 *)
Definition trans_col_map (r : nat) : option imap :=
  imap_make P nbx (fun q => size_local (maps0 q))
    (fun q => match trans_ghosts q with Some l => map fst l | None => [] end)
    (fun q => match trans_ghosts q with Some l => map snd l | None => [] end) r.

(** mattrans.h:127-438: row map, column map, matrix and off-diagonal offsets. *)
Definition transpose (r : nat) : option (imap * (imap * (csr T * list nat))) :=
  let '(m0, m1, A) := (maps0 r, maps1 r, mats r) in
  let '(bs0, bs1) := (mt_bs0 A, mt_bs1 A) in
  let n_row := size_local m0 in
  let n_col := size_local m1 in
  if negb (matched P transpose_calls) then None else
  let at_row_map := imap_plain P (fun q => size_local (maps1 q)) r in
  '(at0_cols, (at0_rp, at0_vals)) <- local_transpose bs0 bs1 zero n_row n_col A (offs r) ;;
  if fast_path r then
    let at_col_map := imap_plain P (fun q => size_local (maps0 q)) r in
    let off_diag := adj_diff at0_rp in
    Some (at_row_map, (at_col_map, (mkCSR bs1 bs0 at0_cols at0_rp at0_vals,
                                    map (fun p => fst p + snd p) (combine off_diag at0_rp))))
  else
    '(arr, _) <- trans_recv r ;;
    (* :310-323 *)
    lcs <- omap (fun it : nat * (nat * list T) =>
                   if (im_lo m1 <=? fst (snd it)) && (fst (snd it) <? im_hi m1) then Some (fst (snd it) - im_lo m1) else None) arr ;;
    new_row_count <- ofold incr lcs (adj_diff at0_rp) ;;
    let at_row_ptr := psums new_row_count in
    (* :325-366 *)
    _ <- trans_ghosts r ;;
    at_col_map <- trans_col_map r ;;
    let new_col_local := map (fun it : nat * (nat * list T) => global_to_local at_col_map (fst it)) arr in
    (* :368-380 *)
    let nnz := last at_row_ptr 0 in
    '(at_cols, at_vals) <- ofold (fun '(cs, vs) i =>
        a <- nth_error at0_rp i ;; b <- nth_error at0_rp (S i) ;; p <- nth_error at_row_ptr i ;;
        c <- slice at0_cols a b ;; v <- slice at0_vals (a * bs0 * bs1) (b * bs0 * bs1) ;;
        cs' <- copy_at cs p c ;; vs' <- copy_at vs (p * bs0 * bs1) v ;; Some (cs', vs'))
      (seq 0 n_col) (repeat 0 nnz, repeat zero (nnz * bs0 * bs1)) ;;
    (* :385-391 *)
    let off_diag := adj_diff at0_rp in
    let cursor := map (fun p => fst p + snd p) (combine at_row_ptr off_diag) in
    (* :393-418 *)
    '(_, (at_cols, at_vals)) <- ofold (fun st k =>
        l <- nth_error lcs k ;; c <- nth_error new_col_local k ;;
        if (c <? 0)%Z then None else
        put_entry bs0 bs1 (concat (map (fun it : nat * (nat * list T) => snd (snd it)) arr)) st l (Z.to_nat c) k)
      (seq 0 (length arr)) (cursor, (at_cols, at_vals)) ;;
    Some (at_row_map, (at_col_map, (mkCSR bs1 bs0 at_cols at_row_ptr at_vals,
                                    map (fun p => fst p + snd p) (combine off_diag at_row_ptr)))).
End Transpose.
