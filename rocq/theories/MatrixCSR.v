(** Model of the local part of cpp/dolfinx/la/MatrixCSR.h and of
    cpp/dolfinx/la/matrix_csr_impl.h.

    Simplifications: indices are naturals; scalars are an abstract type; a failing
    [assert] and the debug row check are [None].  Block sizes are run-time values. *)
From Verif Require Import Base Algo IndexMap.

Section Csr.
Context {T : Type}.

(** MatrixCSR.h private members used here. *)
Record csr := mkCSR { mt_bs0 : nat; mt_bs1 : nat; mt_cols : list nat; mt_rp : list nat; mt_data : list T }.

(** [op(data[p], v)] *)
Definition apply_op (op : T -> T -> T) (data : list T) (p : nat) (v : T) : option (list T) :=
  y <- nth_error data p ;; upd data p (op y v).

(** [for (std::size_t i = 0; i < v.size(); ++i)] with the value [v[i]]. *)
Definition enum {A} (v : list A) : list (nat * A) := combine (seq 0 (length v)) v.

(** [cit0 = cols.begin() + row_ptr[row]; cit1 = ... row_ptr[row + 1]]:
    the first position and the columns of a row. *)
Definition row_of (cols rp : list nat) (row : nat) : option (nat * list nat) :=
  a <- nth_error rp row ;; b <- nth_error rp (S row) ;; l <- slice cols a b ;; Some (a, l).

(** matrix_csr_impl.h:67-109.  [find_sorted] is the lower_bound search and its check. *)
Definition insert_csr (op : T -> T -> T) (BS0 BS1 : nat) (cols rp : list nat) (num_rows : nat)
    (x : list T) (xrows xcols : list nat) (data : list T) : option (list T) :=
  let nc := length xcols in
  if length x =? length xrows * nc * BS0 * BS1 then
    ofold (fun data '(r, row) =>
      if num_rows <=? row then None else
      '(a, rc) <- row_of cols rp row ;;
      ofold (fun data '(c, col) =>
        k <- find_sorted rc col ;;
        let di := (a + k) * BS0 * BS1 in
        let xi := r * nc * BS0 * BS1 + c * BS1 in
        ofold (fun data i =>
          ofold (fun data j =>
            v <- nth_error x (xi + i * (nc * BS1) + j) ;;
            apply_op op data (di + i * BS1 + j) v) (seq 0 BS1) data) (seq 0 BS0) data)
        (enum xcols) data)
      (enum xrows) data
  else None.

(** matrix_csr_impl.h:132-172 *)
Definition insert_blocked_csr (op : T -> T -> T) (BS0 BS1 : nat) (cols rp : list nat) (num_rows : nat)
    (x : list T) (xrows xcols : list nat) (data : list T) : option (list T) :=
  let nc := length xcols in
  if length x =? length xrows * nc * BS0 * BS1 then
    ofold (fun data '(r, xrow) =>
      let row := xrow * BS0 in
      if num_rows <=? row then None else
      ofold (fun data i =>
        let xr := (r * BS0 + i) * nc * BS1 in
        '(a, rc) <- row_of cols rp (row + i) ;;
        ofold (fun data '(c, col) =>
          k <- find_sorted rc (col * BS1) ;;
          let xi := c * BS1 in
          ofold (fun data j =>
            v <- nth_error x (xr + xi + j) ;;
            apply_op op data (a + k + j) v) (seq 0 BS1) data)
          (enum xcols) data) (seq 0 BS0) data)
      (enum xrows) data
  else None.

(** matrix_csr_impl.h:193-232 *)
Definition insert_nonblocked_csr (op : T -> T -> T) (bs0 bs1 : nat) (cols rp : list nat) (num_rows : nat)
    (x : list T) (xrows xcols : list nat) (data : list T) : option (list T) :=
  let nc := length xcols in
  let nbs := bs0 * bs1 in
  if length x =? length xrows * nc then
    ofold (fun data '(r, xrow) =>
      let q := xrow / bs0 in
      let xr := r * nc in
      if num_rows <=? q then None else
      '(a, rc) <- row_of cols rp q ;;
      ofold (fun data '(c, col) =>
        k <- find_sorted rc (col / bs1) ;;
        let di := (a + k) * nbs + (xrow mod bs0) * bs1 + col mod bs1 in
        v <- nth_error x (xr + c) ;;
        apply_op op data di v)
        (enum xcols) data)
      (enum xrows) data
  else None.

(** The dispatch on block sizes shared by set and add: MatrixCSR.h:273-293, 317-337. *)
Definition mat_insert (op : T -> T -> T) (num_rows : nat) (BS0 BS1 : nat) (A : csr)
    (x : list T) (xrows xcols : list nat) : option csr :=
  let '(mkCSR bs0 bs1 cols rp data) := A in
  data' <- (if (bs0 =? BS0) && (bs1 =? BS1) then
              insert_csr op BS0 BS1 cols rp num_rows x xrows xcols data
            else if (bs0 =? 1) && (bs1 =? 1) then
              insert_blocked_csr op BS0 BS1 cols rp num_rows x xrows xcols data
            else if (BS0 =? 1) && (BS1 =? 1) then
              insert_nonblocked_csr op bs0 bs1 cols rp num_rows x xrows xcols data
            else None) ;;
  Some (mkCSR bs0 bs1 cols rp data').

(** MatrixCSR.h:265-294; the row map has as many rows as the matrix. *)
Definition mat_set (BS0 BS1 : nat) (A : csr) (x : list T) (xrows xcols : list nat) : option csr :=
  mat_insert (fun _ v => v) (length (mt_rp A) - 1) BS0 BS1 A x xrows xcols.

(** MatrixCSR.h:310-338: the bound given for the row check is one too large. *)
Definition mat_add (add : T -> T -> T) (BS0 BS1 : nat) (A : csr) (x : list T) (xrows xcols : list nat) : option csr :=
  mat_insert add (length (mt_rp A)) BS0 BS1 A x xrows xcols.

(** MatrixCSR.h:352-376: dense copy; [m1] is the column map. *)
Definition to_dense (zero : T) (A : csr) (m1 : imap) : option (list T) :=
  let nrows := length (mt_rp A) - 1 in
  let ncols := im_size_global m1 in
  let '(bs0, bs1) := (mt_bs0 A, mt_bs1 A) in
  ofold (fun D r =>
    a <- nth_error (mt_rp A) r ;; b <- nth_error (mt_rp A) (S r) ;;
    ofold (fun D j =>
      ofold (fun D i0 =>
        ofold (fun D i1 =>
          c <- nth_error (mt_cols A) j ;;
          g <- local_to_global m1 c ;;
          v <- nth_error (mt_data A) (j * bs0 * bs1 + i0 * bs1 + i1) ;;
          upd D ((r * bs0 + i0) * ncols * bs1 + g * bs1 + i1) v) (seq 0 bs1) D) (seq 0 bs0) D)
      (seq a (b - a)) D)
    (seq 0 nrows) (repeat zero (nrows * ncols * bs0 * bs1)).

(** MatrixCSR.h:632-703: the arrays of a new matrix.  [edges], [offsets] and [offdiag]
    are the graph and the off-diagonal offsets of the pattern.  Result: the matrix and
    [_off_diagonal_offset]. *)
Definition csr_compact (zero : T) (bs0 bs1 : nat) (edges offsets offdiag : list nat) : csr * list nat :=
  (mkCSR bs0 bs1 edges offsets (repeat zero (length edges * bs0 * bs1)),
   map (fun p => fst p + snd p) (combine offdiag offsets)).

Record exp_state := mkExp { ex_cols : list nat; ex_rp : list nat; ex_off : list nat }.
Definition csr_expanded (zero : T) (bs0 bs1 : nat) (edges offsets offdiag : list nat) : option (csr * list nat) :=
  st <- ofold (fun st i =>
          ofold (fun st _ =>
            nd <- nth_error offdiag i ;;
            cols <- slice_at edges offsets i ;;
            let new_cols := ex_cols st ++ concat (map (fun c => map (fun q1 => c * bs1 + q1) (seq 0 bs1)) cols) in
            Some (mkExp new_cols (ex_rp st ++ [length new_cols]) (ex_off st ++ [last (ex_rp st) 0 + nd * bs1])))
            (seq 0 bs0) st)
        (seq 0 (length offsets - 1)) (mkExp [] [0] []) ;;
  Some (mkCSR 1 1 (ex_cols st) (ex_rp st) (repeat zero (length edges * bs0 * bs1)), ex_off st).

End Csr.
Global Arguments csr : clear implicits.
Global Arguments mkCSR {T}.
