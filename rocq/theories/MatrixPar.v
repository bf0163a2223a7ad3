(** Model of the distributed part of cpp/dolfinx/la/MatrixCSR.h: the communication set up
    by the constructor, [scatter_rev], [mult], [multT] and [squared_norm], and of [spmv]
    and [spmvT] of cpp/dolfinx/la/matrix_csr_impl.h.

    Simplifications: a (row, column) pair is one message item (the code sends two
    integers and halves the displacements); indices are naturals except where a 64-bit
    value is narrowed; [scatter_rev_begin] followed by [scatter_rev_end] is one step;
    block sizes are run-time values (the code has copies of the same function for block
    sizes 1, 2 and 3). *)
From Verif Require Import Base Algo World IndexMap Scatterer MatrixCSR.

(** [static_cast<std::int32_t>] *)
Definition wrap32 (z : Z) : Z := ((z + 2147483648) mod 4294967296 - 2147483648)%Z.

(** [std::adjacent_difference(std::next(disp.begin()), disp.end(), ...)] with disp[0] = 0 *)
Fixpoint adj_diff (l : list nat) : list nat :=
  match l with
  | a :: ((b :: _) as t) => (b - a) :: adj_diff t
  | _ => []
  end.

(** MatrixCSR.h:827-837: the local column of global column [g] on a rank that owns the
    [n1] columns from [lo1] and has the ghosts [ghosts1].  The difference is narrowed to
    32 bits before it is compared.  The search in the sorted pairs finds the position
    of [g] in the list of (distinct) ghosts. *)
Definition unpack_col (lo1 n1 : Z) (ghosts1 : list Z) (g : Z) : option Z :=
  let local_col := wrap32 (g - lo1) in
  if ((local_col <? 0) || (n1 <=? local_col))%Z then
    (fix look (l : list Z) (k : Z) := match l with
       | [] => None
       | h :: t => if (h =? g)%Z then Some k else look t (k + 1)%Z
       end) ghosts1 n1
  else Some local_col.

Section Par.
Context {T : Type}.
Variables (zero : T) (add : T -> T -> T).
Variable P : nat.
Variables (maps0 maps1 : nat -> imap).
Variable mats : nat -> csr T.

Record mcomm := mkMC { mc_g2r : list nat; mc_send_disp : list nat; mc_recv_disp : list nat; mc_unpack : list nat }.

(** MatrixCSR.h:735-800: the buffer of (global row, global column) of the ghost rows. *)
Definition index_send (q : nat) : option (sbuf (nat * nat)) :=
  let m0 := maps0 q in
  let m1 := maps1 q in
  g2r <- omap (find_sorted (im_src m0)) (im_owners m0) ;;
  items <- omap (fun i =>
             n <- nth_error g2r i ;;
             g <- nth_error (im_ghosts m0) i ;;
             cols <- slice_at (mt_cols (mats q)) (mt_rp (mats q)) (size_local m0 + i) ;;
             prs <- omap (fun c => gc <- (if c <? size_local m1 then Some (c + im_lo m1)
                                          else nth_error (im_ghosts m1) (c - size_local m1)) ;;
                                   Some (g, gc)) cols ;;
             Some (n, prs)) (seq 0 (length g2r)) ;;
  data_per_proc <- ofold (fun w nt => modify w (fst nt) (fun x => x + length (snd nt))) items
                     (repeat 0 (length (im_src m0))) ;;
  let disp := psums data_per_proc in
  '(_, buf) <- ofold place (concat (map (fun nt => map (pair (fst nt)) (snd nt)) items))
                 (disp, repeat (0, 0) (last disp 0)) ;;
  Some (buf, (data_per_proc, disp)).

(** MatrixCSR.h:823-847 *)
Definition unpack_one (r : nat) (rc : nat * nat) : option nat :=
  let m0 := maps0 r in
  let m1 := maps1 r in
  if (im_lo m0 <=? fst rc) && (fst rc <? im_hi m0) then
    let local_row := fst rc - im_lo m0 in
    local_col <- unpack_col (Z.of_nat (im_lo m1)) (Z.of_nat (size_local m1)) (map Z.of_nat (im_ghosts m1)) (Z.of_nat (snd rc)) ;;
    '(a, cols) <- row_of (mt_cols (mats r)) (mt_rp (mats r)) local_row ;;
    k <- find_sorted cols (Z.to_nat local_col) ;;
    Some (a + k)
  else None.

(** MatrixCSR.h:716-849 *)
Definition matrix_comm (r : nat) : option mcomm :=
  let bs2 := mt_bs0 (mats r) * mt_bs1 (mats r) in
  g2r <- omap (find_sorted (im_src (maps0 r))) (im_owners (maps0 r)) ;;
  '(_, (_, send_disp)) <- index_send r ;;
  '(arr, recv_sizes) <- exchange P (fun q => im_dest (maps0 q)) (fun q => im_src (maps0 q)) index_send r ;;
  unpack <- omap (unpack_one r) arr ;;
  Some (mkMC g2r (map (fun d => d * bs2) send_disp) (map (fun d => bs2 * d) (psums recv_sizes)) unpack).

(** MatrixCSR.h:399-428 *)
Definition value_send (q : nat) : option (sbuf T) :=
  let m0 := maps0 q in
  let bs2 := mt_bs0 (mats q) * mt_bs1 (mats q) in
  mc <- matrix_comm q ;;
  items <- omap (fun i =>
             n <- nth_error (mc_g2r mc) i ;;
             a <- nth_error (mt_rp (mats q)) (size_local m0 + i) ;;
             b <- nth_error (mt_rp (mats q)) (size_local m0 + i + 1) ;;
             vs <- slice (mt_data (mats q)) (a * bs2) (b * bs2) ;;
             Some (n, vs)) (seq 0 (num_ghosts m0)) ;;
  '(_, buf) <- ofold place (concat (map (fun nt => map (pair (fst nt)) (snd nt)) items))
                 (mc_send_disp mc, repeat zero (last (mc_send_disp mc) 0)) ;;
  Some (buf, (adj_diff (mc_send_disp mc), mc_send_disp mc)).

(** MatrixCSR.h:383-388, 399-468 *)
Definition scatter_rev (r : nat) : option (csr T) :=
  let A := mats r in
  let bs2 := mt_bs0 A * mt_bs1 A in
  mc <- matrix_comm r ;;
  vin <- neigh_alltoallv P (fun q => im_dest (maps0 q)) (fun q => im_src (maps0 q)) value_send
           (fun q => mc <- matrix_comm q ;; Some (adj_diff (mc_recv_disp mc))) r ;;
  if length vin =? length (mc_unpack mc) * bs2 then
    data <- ofold (fun data i => p <- nth_error (mc_unpack mc) i ;;
              ofold (fun data j => v <- nth_error vin (i * bs2 + j) ;; apply_op add data (p * bs2 + j) v)
                    (seq 0 bs2) data)
              (seq 0 (length (mc_unpack mc))) (mt_data A) ;;
    a <- nth_error (mt_rp A) (size_local (maps0 r)) ;;
    Some (mkCSR (mt_bs0 A) (mt_bs1 A) (mt_cols A) (mt_rp A)
            (firstn (a * bs2) data ++ repeat zero (length data - a * bs2)))
  else None.

Variable mul : T -> T -> T.

(** matrix_csr_impl.h:259-287 *)
Definition spmv (bs0 bs1 : nat) (values : list T) (row_begin row_end indices : list nat) (x y : list T) : option (list T) :=
  if length row_begin =? length row_end then
    ofold (fun y k0 =>
      ofold (fun y i =>
        a <- nth_error row_begin i ;; b <- nth_error row_end i ;;
        vi <- ofold (fun vi j =>
                ofold (fun vi k1 =>
                  v <- nth_error values (j * bs0 * bs1 + k0 * bs1 + k1) ;;
                  c <- nth_error indices j ;;
                  xv <- nth_error x (c * bs1 + k1) ;;
                  Some (add vi (mul v xv))) (seq 0 bs1) vi)
                (seq a (b - a)) zero ;;
        apply_op add y (i * bs0 + k0) vi) (seq 0 (length row_begin)) y) (seq 0 bs0) y
  else None.

(** matrix_csr_impl.h:317-341 *)
Definition spmvT (bs0 bs1 : nat) (values : list T) (row_begin row_end indices : list nat) (x y : list T) : option (list T) :=
  if length row_begin =? length row_end then
    ofold (fun y k0 =>
      ofold (fun y i =>
        xval <- nth_error x (i * bs0 + k0) ;;
        a <- nth_error row_begin i ;; b <- nth_error row_end i ;;
        ofold (fun y j =>
          ofold (fun y k1 =>
            v <- nth_error values (j * bs0 * bs1 + k0 * bs1 + k1) ;;
            c <- nth_error indices j ;;
            apply_op add y (c * bs1 + k1) (mul v xval)) (seq 0 bs1) y)
          (seq a (b - a)) y) (seq 0 (length row_begin)) y) (seq 0 bs0) y
  else None.

(** [offs] is [_off_diagonal_offset] of each rank; [xs], [ys] the vectors. *)
Variable offs : nat -> list nat.

(** The spans made at the start of mult and multT, MatrixCSR.h:884-896, 954-966. *)
Definition spans (r : nat) : option (list nat * list nat * list nat * list nat * list T) :=
  let A := mats r in
  let n := size_local (maps0 r) in
  if (n + 1 <=? length (mt_rp A)) && (n <=? length (offs r)) then
    nnz <- nth_error (mt_rp A) n ;;
    Some (firstn n (mt_rp A), firstn n (tl (mt_rp A)), firstn n (offs r), firstn nnz (mt_cols A),
          firstn (nnz * mt_bs0 A * mt_bs1 A) (mt_data A))
  else None.

(** MatrixCSR.h:878-946: the new arrays of x and y.  [x.scatter_fwd_begin/end] update the
    ghosts of x between the two stages. *)
Definition mult (xs ys : nat -> list T) (r : nat) : option (list T * list T) :=
  let A := mats r in
  '(rb, re, od, cols, values) <- spans r ;;
  y1 <- spmv (mt_bs0 A) (mt_bs1 A) values rb od cols (xs r) (ys r) ;;
  x' <- vec_scatter_fwd P maps1 (mt_bs1 A) T xs r ;;
  y2 <- spmv (mt_bs0 A) (mt_bs1 A) values od re cols x' y1 ;;
  Some (x', y2).

(** MatrixCSR.h:951-994, up to the scatter: this rank's array of y. *)
Definition multT_ghost (xs ys : nat -> list T) (r : nat) : option (list T) :=
  let A := mats r in
  '(rb, re, od, cols, values) <- spans r ;;
  let n := size_local (maps1 r) * mt_bs1 A in
  let y0 := firstn n (ys r) ++ repeat zero (length (ys r) - n) in
  spmvT (mt_bs0 A) (mt_bs1 A) values od re cols (xs r) y0.
(** MatrixCSR.h:951-1016; fails if a rank failed before the scatter. *)
Definition multT (xs ys : nat -> list T) (r : nat) : option (list T) :=
  let A := mats r in
  '(rb, re, od, cols, values) <- spans r ;;
  y1 <- (_ <- omap (fun q => multT_ghost xs ys q) (seq 0 P) ;;
         vec_scatter_rev P maps1 (mt_bs1 A) T add
           (fun q => match multT_ghost xs ys q with Some y => y | None => [] end) r) ;;
  spmvT (mt_bs0 A) (mt_bs1 A) values rb od cols (xs r) y1.

(** MatrixCSR.h:473-486; [normv] is std::norm. *)
Definition squared_norm (normv : T -> T) : option T :=
  ls <- omap (fun r =>
          let A := mats r in
          a <- nth_error (mt_rp A) (size_local (maps0 r)) ;;
          vs <- slice (mt_data A) 0 (a * (mt_bs0 A * mt_bs1 A)) ;;
          Some (fold_left (fun n y => add n (normv y)) vs zero)) (seq 0 P) ;;
  Some (fold_right add zero ls).
End Par.
