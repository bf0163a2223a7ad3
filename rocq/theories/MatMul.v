(** Model of cpp/dolfinx/la/matmul.h.

    Simplifications: the value, the global column and the owner of an entry are one
    message item (the code sends three arrays with the same counts and displacements);
    indices are naturals; the nested loops over the entries of a row are written as the
    list of (column, product) pairs they visit, in order, followed by the loop that
    accumulates them. *)
From Verif Require Import Base Algo World IndexMap MatrixCSR MatrixPar Collectives MatTrans.

(** An index map lookup whose result is used as an array index. *)
Definition g2l_index (m : imap) (g : nat) : option nat :=
  let z := global_to_local m g in if (z <? 0)%Z then None else Some (Z.to_nat z).

Section Accumulate.
Context {T : Type}.
Variables (zero : T) (add : T -> T -> T) (eqb : T -> T -> bool).

(** matmul.h:464-470, 485-491: [acc], [in_row], [row_cols]. *)
Definition acc_state : Type := (list T * (list bool * list nat))%type.
Definition acc_add (st : acc_state) (kv : nat * T) : option acc_state :=
  let '(acc, (in_row, row_cols)) := st in
  let '(k, v) := kv in
  f <- nth_error in_row k ;;
  '(in_row', row_cols') <- (if negb f && negb (eqb v zero)
                            then i' <- upd in_row k true ;; Some (i', row_cols ++ [k])
                            else Some (in_row, row_cols)) ;;
  acc' <- modify acc k (fun x => add x v) ;;
  Some (acc', (in_row', row_cols')).

(** matmul.h:494-505: remove the columns where the sum is zero. *)
Definition drop_zeros (acc : list T) (in_row : list bool) (row_cols : list nat) : option (list bool * list nat) :=
  ofold (fun '(in_row, kept) c =>
    v <- nth_error acc c ;;
    if eqb v zero then i' <- upd in_row c false ;; Some (i', kept) else Some (in_row, kept ++ [c])) row_cols (in_row, []).

(** matmul.h:518-525: append the row, reset the accumulator. *)
Definition flush (acc : list T) (in_row : list bool) (row_cols : list nat) (cols : list nat) (vals : list T)
  : option ((list T * list bool) * (list nat * list T)) :=
  ofold (fun '((acc, in_row), (cols, vals)) c =>
    v <- nth_error acc c ;;
    acc' <- upd acc c zero ;;
    in_row' <- upd in_row c false ;;
    Some ((acc', in_row'), (cols ++ [c], vals ++ [v]))) row_cols ((acc, in_row), (cols, vals)).

Record mm_out := mkMM { mm_rp : list nat; mm_off : list nat; mm_cols : list nat; mm_vals : list T }.

(** matmul.h:448-527: one row; [items] are the products it adds. *)
Definition mm_row (owned : nat) (st : (list T * list bool) * mm_out) (items : list (nat * T)) : option ((list T * list bool) * mm_out) :=
  let '((acc, in_row), o) := st in
  '(acc, (in_row, row_cols)) <- ofold acc_add items (acc, (in_row, [])) ;;
  '(in_row, row_cols) <- drop_zeros acc in_row row_cols ;;
  let row_cols := isort Nat.leb row_cols in
  let nd := length (filter (fun c => c <? owned) row_cols) in
  '(ai, (cols, vals)) <- flush acc in_row row_cols (mm_cols o) (mm_vals o) ;;
  Some (ai, mkMM (mm_rp o ++ [length cols]) (mm_off o ++ [nd]) cols vals).

(** matmul.h:433-531 *)
Definition mm_rows (num_cols owned : nat) (rows : list (list (nat * T))) : option mm_out :=
  '(_, o) <- ofold (mm_row owned) rows ((repeat zero num_cols, repeat false num_cols), mkMM [0] [] [] []) ;;
  Some o.
End Accumulate.

Section Matmul.
Context {T : Type}.
Variables (zero : T) (add mul : T -> T -> T) (eqb : T -> T -> bool).
Variables (P : nat) (nbx : (nat -> list nat) -> nat -> list nat).
Variables (A0 A1 B0 B1 : nat -> imap).
Variables matsA matsB : nat -> csr T.
Variable offsA : nat -> list nat.
Notation src q := (im_src (A1 q)).
Notation dest q := (im_dest (A1 q)).

(** matmul.h:131-132 *)
Definition mm_fast (r : nat) : bool := (P =? 1) || isolated (A1 r).
(** The collective operations on the communicator: matmul.h:134-136, 152-159, 354-355 and
    569-574. *)
Definition matmul_calls (r : nat) : list coll :=
  (if mm_fast r then imap_make_calls P else [CDistGraph; CDistGraph] ++ imap_make_calls P) ++ imap_plain_calls ++ matrix_calls.

(** matmul.h:167-197: the requested rows, sorted by owner. *)
Definition row_request (q : nat) : option (sbuf nat) :=
  nbr <- omap (find_sorted (src q)) (im_owners (A1 q)) ;;
  send_count <- count_keys (length (src q)) nbr ;;
  let send_disp := psums send_count in
  '(_, buf) <- ofold place (combine nbr (im_ghosts (A1 q))) (send_disp, repeat 0 (last send_disp 0)) ;;
  Some (buf, (send_count, send_disp)).
(** matmul.h:182-191: [perm] *)
Definition request_perm (q : nat) : option (list nat) :=
  nbr <- omap (find_sorted (src q)) (im_owners (A1 q)) ;;
  send_count <- count_keys (length (src q)) nbr ;;
  '(_, perm) <- ofold (fun '(disp, perm) s => p <- nth_error disp s ;; disp' <- upd disp s (S p) ;; Some (disp', perm ++ [p]))
                  nbr (psums send_count, []) ;;
  Some perm.

(** matmul.h:199-213: local rows requested by others, and the number for each of them. *)
Definition rows_wanted (q : nat) : option (list nat * list nat) :=
  '(arr, recv_count) <- exchange P (fun q => dest q) (fun q => src q) row_request q ;;
  ls <- omap (g2l_index (B0 q)) arr ;;
  Some (ls, recv_count).

(** matmul.h:243-252, 277-291: a row of B as (value, (global column, owner)). *)
Definition packed_row (q i : nat) : option (list (T * (nat * nat))) :=
  let B := matsB q in
  let n := size_local (B1 q) in
  a <- nth_error (mt_rp B) i ;; b <- nth_error (mt_rp B) (S i) ;;
  omap (fun k => v <- nth_error (mt_data B) k ;; c <- nth_error (mt_cols B) k ;;
                 g <- local_to_global (B1 q) c ;;
                 o <- (if c <? n then Some q else nth_error (im_owners (B1 q)) (c - n)) ;;
                 Some (v, (g, o))) (seq a (b - a)).

(** matmul.h:215-310: the rows asked for, and their sizes. *)
Definition row_reply (q : nat) : option (sbuf (T * (nat * nat))) :=
  '(ls, recv_count) <- rows_wanted q ;;
  rows <- omap (packed_row q) ls ;;
  cnt <- omap (fun p => blk <- slice_at rows (psums recv_count) p ;; Some (lsum (map (@length _) blk))) (seq 0 (length (dest q))) ;;
  Some (concat rows, (cnt, psums cnt)).
Definition size_reply (q : nat) : option (sbuf nat) :=
  '(ls, recv_count) <- rows_wanted q ;;
  rows <- omap (packed_row q) ls ;;
  Some (map (@length _) rows, (recv_count, psums recv_count)).
Definition fetched (r : nat) : option (list (T * (nat * nat))) :=
  '(arr, _) <- exchange P (fun q => src q) (fun q => dest q) row_reply r ;; Some arr.
Definition fetched_sizes (r : nat) : option (list nat) :=
  neigh_alltoallv P (fun q => src q) (fun q => dest q) size_reply (fun q => '(_, (c, _)) <- row_request q ;; Some c) r.

(** matmul.h:134-136, 325-355: the ghosts of the column map of the product. *)
Definition mm_ghosts (r : nat) : option (list (nat * nat)) :=
  let m := B1 r in
  let existing := combine (im_ghosts m) (im_owners m) in
  if mm_fast r then Some existing else
  arr <- fetched r ;;
  Some (sort_uniq_pairs (filter (fun p : nat * nat => negb ((im_lo m <=? fst p) && (fst p <? im_hi m))) (map snd arr) ++ existing)).
Definition mm_col_map (r : nat) : option imap :=
  _ <- mm_ghosts r ;;
  imap_make P nbx (fun q => size_local (B1 q))
    (fun q => match mm_ghosts q with Some l => map fst l | None => [] end)
    (fun q => match mm_ghosts q with Some l => map snd l | None => [] end) r.

(** matmul.h:137-140, 357-387: the fetched rows in the order of the ghosts of A. *)
Definition ghost_rows (r : nat) (cm : imap) : option (list nat * (list nat * list T)) :=
  if mm_fast r then Some ([0], ([], [])) else
  arr <- fetched r ;;
  sizes <- fetched_sizes r ;;
  perm <- request_perm r ;;
  cols <- omap (fun it : T * (nat * nat) => g2l_index cm (fst (snd it))) arr ;;
  let vals := map fst arr in
  let rp := psums sizes in
  osizes <- omap (nth_error sizes) perm ;;
  let orp := psums osizes in
  '(ocols, ovals) <- ofold (fun '(cs, vs) i =>
      p <- nth_error perm i ;; a <- nth_error rp p ;; b <- nth_error rp (S p) ;; d <- nth_error orp i ;;
      c <- slice cols a b ;; v <- slice vals a b ;;
      cs' <- copy_at cs d c ;; vs' <- copy_at vs d v ;; Some (cs', vs'))
    (seq 0 (length perm)) (repeat 0 (length cols), repeat zero (length vals)) ;;
  Some (orp, (ocols, ovals)).

(** matmul.h:452-472: the products with owned rows of B. *)
Definition local_items (r i : nat) (remap : list nat) : option (list (nat * T)) :=
  let '(A, B) := (matsA r, matsB r) in
  let n := size_local (B1 r) in
  a <- nth_error (mt_rp A) i ;; d <- nth_error (offsA r) i ;;
  per <- omap (fun ka => j <- nth_error (mt_cols A) ka ;; av <- nth_error (mt_data A) ka ;;
                 b0 <- nth_error (mt_rp B) j ;; b1 <- nth_error (mt_rp B) (S j) ;;
                 omap (fun kb => c <- nth_error (mt_cols B) kb ;; bv <- nth_error (mt_data B) kb ;;
                         k <- (if c <? n then Some c else nth_error remap (c - n)) ;;
                         Some (k, mul av bv)) (seq b0 (b1 - b0))) (seq a (d - a)) ;;
  Some (concat per).
(** matmul.h:475-492: the products with fetched rows of B. *)
Definition ghost_items (r i : nat) (gr : list nat * (list nat * list T)) : option (list (nat * T)) :=
  let '(A, B) := (matsA r, matsB r) in
  let '(rp, (cols, vals)) := gr in
  d <- nth_error (offsA r) i ;; e <- nth_error (mt_rp A) (S i) ;;
  per <- omap (fun ka => j <- nth_error (mt_cols A) ka ;; av <- nth_error (mt_data A) ka ;;
                 if j <? size_local (B0 r) then None else
                 let g := j - size_local (B0 r) in
                 b0 <- nth_error rp g ;; b1 <- nth_error rp (S g) ;;
                 omap (fun kb => k <- nth_error cols kb ;; bv <- nth_error vals kb ;; Some (k, mul av bv)) (seq b0 (b1 - b0)))
              (seq d (e - d)) ;;
  Some (concat per).

(** matmul.h:548-580: [Some None] is the exception; else row map, column map, matrix and
    off-diagonal offsets. *)
Definition matmul (r : nat) : option (option (imap * (imap * (csr T * list nat)))) :=
  let '(A, B) := (matsA r, matsB r) in
  if negb ((mt_bs0 A =? 1) && (mt_bs1 A =? 1) && (mt_bs0 B =? 1) && (mt_bs1 B =? 1)) then Some None else
  if negb (matched P matmul_calls) then None else
  cm <- mm_col_map r ;;
  gr <- ghost_rows r cm ;;
  remap <- omap (g2l_index cm) (im_ghosts (B1 r)) ;;
  rows <- omap (fun i => l <- local_items r i remap ;; g <- ghost_items r i gr ;; Some (l ++ g)) (seq 0 (size_local (A0 r))) ;;
  o <- mm_rows zero add eqb (size_local cm + num_ghosts cm) (size_local cm) rows ;;
  let '(C, offs) := csr_compact zero 1 1 (mm_cols o) (mm_rp o) (mm_off o) in
  Some (Some (imap_plain P (fun q => size_local (A0 q)) r,
              (cm, (mkCSR 1 1 (mt_cols C) (mt_rp C) (mm_vals o), offs)))).
End Matmul.
