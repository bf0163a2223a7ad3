(** Model of the matrices of discrete operators (cpp/dolfinx/fem/discreteoperators.h).

    Simplifications: numbers are of any type with [zero], [add], [sub] and [mul], and the clamping of small basis
    values is left out; the values of the basis functions, pushed forward to the cells, and the maps between cells
    and reference cells are data; a dof transformation acts on each column of a matrix and is any function of the
    cell.  Matrices are lists of rows.  The loops that add to all columns of a row are exchanged: each entry is the
    same sum in the same order.  What the functor does with a matrix is the list of the entries that it is called
    with.  Exceptions and accesses outside arrays are [None]. *)
From Verif Require Import Base.
Open Scope nat_scope.

Section DiscreteOps.
Variables (T : Type) (zero : T) (add mul sub : T -> T -> T).

(** A call of the functor: the entries of the rows and columns of blocks of dofs *)
Definition block_entries (bs1 bs0 : nat) (rows cols : list nat) (A : list (list T)) : option (list (nat * nat * T)) :=
  omap (fun x => let '((i, k), (j, l)) := x in
      r <- nth_error rows i ;; c <- nth_error cols j ;;
      row <- nth_error A (i * bs1 + k) ;; v <- nth_error row (j * bs0 + l) ;;
      Some (bs1 * r + k, bs0 * c + l, v))
    (list_prod (list_prod (seq 0 (length rows)) (seq 0 bs1)) (list_prod (seq 0 (length cols)) (seq 0 bs0))).

(** discreteoperators.h:564-569, for a point *)
Definition unroll (bs0 dim0 value_size0 value_size1 : nat) (basis0 : list (list T)) : option (list T) :=
  ofold (fun B x => let '((i, j), k) := x in
      row <- nth_error basis0 i ;; v <- nth_error row j ;;
      if value_size1 <=? j * bs0 + k then None else upd B ((i * bs0 + k) * value_size1 + (j * bs0 + k)) v)
    (list_prod (list_prod (seq 0 dim0) (seq 0 value_size0)) (seq 0 bs0)) (repeat zero (bs0 * dim0 * value_size1)).

(** discreteoperators.h:571-581, for a point: [pull] is the map of a value to the reference cell *)
Definition pull_back (pull : list T -> list T) (space_dim0 value_size1 : nat) (B : list T) : option (list (list T)) :=
  omap (fun m => row <- slice B (m * value_size1) (m * value_size1 + value_size1) ;; Some (pull row)) (seq 0 space_dim0).

(** discreteoperators.h:585-636 and 217-226 (not [ident], [bs1] is one).  [mv]: values by point, basis function,
    component; [ident] is [interpolation_ident] *)
Definition local_matrix (ident : bool) (bs1 value_size1 num_points space_dim0 : nat) (Pi : list (list T)) (mv : list (list (list T))) : option (list (list T)) :=
  let value p i k := P <- nth_error mv p ;; row <- nth_error P i ;; nth_error row k in
  if ident then omap (fun '(p, k) => omap (fun j => value p j k) (seq 0 space_dim0)) (list_prod (seq 0 num_points) (seq 0 value_size1))
  else if bs1 =? 1 then
    omap (fun row => omap (fun i =>
        ofold (fun s '(k, p) => w <- nth_error row (k * num_points + p) ;; v <- value p i k ;; Some (add s (mul w v)))
          (list_prod (seq 0 value_size1) (seq 0 num_points)) zero) (seq 0 space_dim0)) Pi
  else
    omap (fun '(row, k) => omap (fun i =>
        ofold (fun s p => w <- nth_error row p ;; v <- value p i k ;; Some (add s (mul w v))) (seq 0 num_points) zero) (seq 0 space_dim0))
      (list_prod Pi (seq 0 bs1)).

(** A dof transformation of a matrix with [n] columns *)
Definition apply_columns (f : list T -> list T) (n : nat) (A : list (list T)) : option (list (list T)) :=
  cols <- omap (fun i => col <- omap (fun row => nth_error row i) A ;; Some (f col)) (seq 0 n) ;;
  omap (fun m => omap (fun col => nth_error col m) cols) (seq 0 (length A)).

(** discreteoperators.h:640-657: rows that are not owned or have been added are set to zero *)
Definition mask_rows (num_owned_rows row_bs space_dim0 : nat) (row_dofs : list nat) (row_added : list bool) (A : list (list T)) : option (list bool * list (list T)) :=
  ofold (fun st i => let '(row_added, A) := st in
      r <- nth_error row_dofs i ;;
      done <- (if num_owned_rows <=? r then Some true else nth_error row_added r) ;;
      A <- (if done : bool then ofold (fun A k => upd A (i * row_bs + k) (repeat zero space_dim0)) (seq 0 row_bs) A else Some A) ;;
      row_added <- upd row_added r true ;;
      Some (row_added, A))
    (seq 0 (length row_dofs)) (row_added, A).

(** discreteoperators.h:366-660.  [basis c p]: the basis functions of the first space at a point of a cell; [col_bs]
    and [row_bs] are the block sizes of the dof maps, [num_owned_rows] and [num_ghosted_rows] count blocks of dofs
    of the second space.  A local matrix must have [space_dim1] rows. *)
Definition interpolation_matrix (bs0 bs1 dim0 value_size0 value_size1 space_dim1 num_points : nat) (ident : bool) (Pi : list (list T))
    (basis : nat -> nat -> list (list T)) (pull : nat -> nat -> list T -> list T) (transform1 : nat -> list T -> list T)
    (col_bs row_bs num_owned_rows num_ghosted_rows num_cells : nat) (dofmap0 dofmap1 : list (list nat)) : option (list (nat * nat * T)) :=
  let space_dim0 := bs0 * dim0 in
  '(_, M) <- ofold (fun st c => let '(row_added, M) := st in
      mv <- omap (fun p => B <- unroll bs0 dim0 value_size0 value_size1 (basis c p) ;; pull_back (pull c p) space_dim0 value_size1 B) (seq 0 num_points) ;;
      A <- local_matrix ident bs1 value_size1 num_points space_dim0 Pi mv ;;
      if negb (length A =? space_dim1) then None else
      A <- apply_columns (transform1 c) space_dim0 A ;;
      row_dofs <- nth_error dofmap1 c ;;
      '(row_added, A) <- mask_rows num_owned_rows row_bs space_dim0 row_dofs row_added A ;;
      col_dofs <- nth_error dofmap0 c ;;
      e <- block_entries row_bs col_bs row_dofs col_dofs A ;;
      Some (row_added, M ++ e))
    (seq 0 num_cells) (repeat false (num_owned_rows + num_ghosted_rows), []) ;;
  Some M.

(** discreteoperators.h:273-349.  [dphi]: the derivatives of the basis functions of the first space, a row for each
    direction and point *)
Definition discrete_gradient (ndofs0 : nat) (Pi dphi : list (list T)) (transform1 : nat -> list T -> list T) (num_cells : nat) (dofmap0 dofmap1 : list (list nat)) : option (list (nat * nat * T)) :=
  A <- omap (fun row => omap (fun i =>
      ofold (fun s q => w <- nth_error row q ;; d <- nth_error dphi q ;; v <- nth_error d i ;; Some (add s (mul w v))) (seq 0 (length dphi)) zero) (seq 0 ndofs0)) Pi ;;
  ofold (fun M c =>
      Ae <- apply_columns (transform1 c) ndofs0 A ;;
      rows <- nth_error dofmap1 c ;; cols <- nth_error dofmap0 c ;;
      e <- block_entries 1 1 rows cols Ae ;; Some (M ++ e)) (seq 0 num_cells) [].

(** discreteoperators.h:86-231.  [Phi0]: the basis functions and their three derivatives, by derivative, point,
    function and component *)
Definition curl_at (transform0 : list T -> list T) (space_dim0 : nat) (Phi0 : list (list (list (list T)))) (p : nat) : option (list (list T)) :=
  rows <- omap (fun phi => omap (fun '(dx, d) => D <- nth_error Phi0 (dx + 1) ;; P <- nth_error D p ;; r <- nth_error P phi ;; nth_error r d)
      (list_prod (seq 0 3) (seq 0 3))) (seq 0 space_dim0) ;;
  dPhi0 <- apply_columns transform0 9 rows ;;
  omap (fun row => let g dx d := nth_error row (dx * 3 + d) in
      a <- g 1 2 ;; b <- g 2 1 ;; c <- g 2 0 ;; d <- g 0 2 ;; e <- g 0 1 ;; f <- g 1 0 ;;
      Some [sub a b; sub c d; sub e f]) dPhi0.
Definition discrete_curl (space_dim0 num_points : nat) (Pi : list (list T)) (Phi0 : list (list (list (list T)))) (transform0 transform1 : nat -> list T -> list T)
    (num_cells : nat) (dofmap0 dofmap1 : list (list nat)) : option (list (nat * nat * T)) :=
  ofold (fun M c =>
      curl <- omap (curl_at (transform0 c) space_dim0 Phi0) (seq 0 num_points) ;;
      A <- local_matrix false 1 3 num_points space_dim0 Pi curl ;;
      A <- apply_columns (transform1 c) space_dim0 A ;;
      rows <- nth_error dofmap1 c ;; cols <- nth_error dofmap0 c ;;
      e <- block_entries 1 1 rows cols A ;; Some (M ++ e)) (seq 0 num_cells) [].
End DiscreteOps.
