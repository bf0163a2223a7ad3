(** Model of the interpolation of point values into a finite element space
    (cpp/dolfinx/fem/interpolate.h: [interpolation_apply], [point_evaluation],
    [identity_mapped_evaluation], [interpolate]), of the interpolation between spaces on one
    mesh ([interpolate_same_map] and the copy for equal elements) and of Function::eval
    (cpp/dolfinx/fem/Function.h:457-760).

    Simplifications: numbers are of any type with [zero], [add] and [mul]; the transformation of
    the dofs of a cell ([dof_transformation_fn]) is any function of the cell and the values; the
    values of the basis functions at a point of a cell, pushed forward to the cell, are any
    function of the cell and the point; dof maps are lists of rows.  Exceptions, failing
    [assert]s and accesses outside arrays are [None]. *)
From Verif Require Import Base.

Section Interp.
Variables (T : Type) (zero : T) (add mul : T -> T -> T).

(** interpolate.h:722-728, 841-846: [coeffs[dofmap_bs * dofs[i] + k] = coeffs_b[i]] when the
    block sizes agree, and interpolate.h:729-736, 847-855: with [std::div] when they do not. *)
Definition write_block (element_bs dofmap_bs : nat) (dofs : list nat) (k num_scalar_dofs : nat) (coeffs_b coeffs : list T) : option (list T) :=
  if dofmap_bs =? 0 then None else
  ofold (fun a i =>
    v <- nth_error coeffs_b i ;;
    if dofmap_bs =? element_bs then
      d <- nth_error dofs i ;; upd a (dofmap_bs * d + k) v
    else
      d <- nth_error dofs ((i * element_bs + k) / dofmap_bs) ;;
      upd a (dofmap_bs * d + (i * element_bs + k) mod dofmap_bs) v)
    (seq 0 num_scalar_dofs) coeffs.

(** interpolate.h:688-690: [while (matrix_size * matrix_size < n) ++matrix_size]; the size is
    at most [n]. *)
Fixpoint matrix_size_from (fuel m n : nat) : nat :=
  match fuel with 0 => m | S g => if m * m <? n then matrix_size_from g (S m) n else m end.
Definition matrix_size (n : nat) : nat := matrix_size_from n 0 n.

(** interpolate.h:706-714 and Function.h:708-716: the next row when the column is past the
    diagonal.  [k - rowstart] is not negative. *)
Definition next_row (k : nat) (rr : nat * nat) : nat * nat :=
  let '(row, rowstart) := rr in if row <? k - rowstart then (S row, k) else (row, rowstart).

(** interpolate.h:664-777; [transform] is [apply_inv_transpose_dof_transformation]. *)
Definition point_evaluation (element_bs num_scalar_dofs dofmap_bs : nat) (symmetric : bool) (dofmap : list (list nat))
    (transform : nat -> list T -> list T) (cells : list nat) (f : list T) (fshape : nat * nat) (coeffs : list T) : option (list T) :=
  let n := matrix_size (fst fshape) in
  ofold (fun a oc => let '(offset, c) := oc in
    dofs <- nth_error dofmap c ;;
    '(_, a') <- ofold (fun st k => let '(rr, a) := st in
        let '(row, rowstart) := next_row k rr in
        let comp := if symmetric then row * n + k - rowstart else k in
        let start := comp * snd fshape + offset * num_scalar_dofs in
        vs <- slice f start (start + num_scalar_dofs) ;;
        a' <- write_block element_bs dofmap_bs dofs k num_scalar_dofs (transform c vs) a ;;
        Some ((row, rowstart), a'))
      (seq 0 element_bs) ((0, 0), a) ;;
    Some a') (combine (seq 0 (length cells)) cells) coeffs.

(** interpolate.h:304-341: a row of the matrix times the values, summed in order ([bs == 1];
    one column of values, as in all the calls modelled here). *)
Definition row_times (row data : list T) : option T :=
  if length row =? length data then Some (fold_left (fun s pd => add s (mul (fst pd) (snd pd))) (combine row data) zero) else None.
Definition interpolation_apply (Pi : list (list T)) (data : list T) : option (list T) := omap (fun row => row_times row data) Pi.

(** interpolate.h:791-860; [points] is [Pi.extent(1)], the number of points times the value
    size. *)
Definition identity_mapped_evaluation (element_bs num_scalar_dofs element_vs dofmap_bs : nat) (symmetric : bool) (points : nat) (Pi : list (list T))
    (dofmap : list (list nat)) (transform : nat -> list T -> list T) (cells : list nat) (f : list T) (fshape : nat * nat) (coeffs : list T) : option (list T) :=
  if symmetric then None else
  if (1 <? element_vs) && (1 <? element_bs) then None else
  if (element_vs =? 0) || negb (length Pi =? num_scalar_dofs) then None else
  ofold (fun a oc => let '(offset, c) := oc in
    dofs <- nth_error dofmap c ;;
    ofold (fun a k =>
        data <- omap (fun i => let start := (i + k) * snd fshape + offset * points / element_vs in
                      slice f start (start + points / element_vs)) (seq 0 element_vs) ;;
        coeffs_b <- interpolation_apply Pi (concat data) ;;
        write_block element_bs dofmap_bs dofs k num_scalar_dofs (transform c coeffs_b) a)
      (seq 0 element_bs) a) (combine (seq 0 (length cells)) cells) coeffs.

(** interpolate.h:1131-1190 for elements with an identity map: [interpolation_ident] tells
    the point evaluations.  [num_sub] is the number of sub-elements, [value_size] the number of
    components. *)
Definition interpolate_values (element_bs num_scalar_dofs element_vs num_sub value_size dofmap_bs : nat) (symmetric interpolation_ident : bool)
    (points : nat) (Pi : list (list T)) (dofmap : list (list nat)) (transform : nat -> list T -> list T)
    (cells : list nat) (f : list T) (fshape : nat * nat) (coeffs : list T) : option (list T) :=
  if (0 <? num_sub) && negb (num_sub =? element_bs) then None else
  if negb (fst fshape =? value_size) || negb (length f =? fst fshape * snd fshape) then None else
  if interpolation_ident then point_evaluation element_bs num_scalar_dofs dofmap_bs symmetric dofmap transform cells f fshape coeffs
  else identity_mapped_evaluation element_bs num_scalar_dofs element_vs dofmap_bs symmetric points Pi dofmap transform cells f fshape coeffs.

(** [for i, for k: local[bs * i + k] = array[bs * dofs[i] + k]] (interpolate.h:431-434,
    Function.h:697-701).  The work array is the same for all cells in the code; all of it is
    written when the number of dofs of the cell is that of the element. *)
Definition gather (bs : nat) (dofs : list nat) (size : nat) (array : list T) : option (list T) :=
  ofold (fun local ik => let '(i, k) := ik in
      d <- nth_error dofs i ;; v <- nth_error array (bs * d + k) ;; upd local (bs * i + k) v)
    (list_prod (seq 0 (length dofs)) (seq 0 bs)) (repeat zero size).
(** interpolate.h:447-450 *)
Definition scatter_local (bs : nat) (dofs : list nat) (local array : list T) : option (list T) :=
  ofold (fun a ik => let '(i, k) := ik in
      d <- nth_error dofs i ;; v <- nth_error local (bs * i + k) ;; upd a (bs * d + k) v)
    (list_prod (seq 0 (length dofs)) (seq 0 bs)) array.

(** interpolate.h:1320-1348: the same element on the same mesh. *)
Definition interpolate_copy (bs0 bs1 : nat) (dofmap0 dofmap1 : list (list nat)) (cells0 cells1 : list nat) (array0 array1 : list T) : option (list T) :=
  if negb (length cells0 =? length cells1) || (bs1 =? 0) then None else
  ofold (fun a cc =>
      dofs0 <- nth_error dofmap0 (fst cc) ;;
      dofs1 <- nth_error dofmap1 (snd cc) ;;
      if negb (bs0 * length dofs0 =? bs1 * length dofs1) then None else
      ofold (fun a ik => let '(i, k) := ik in
          d1 <- nth_error dofs1 ((bs0 * i + k) / bs1) ;;
          d0 <- nth_error dofs0 i ;;
          v <- nth_error array0 (bs0 * d0 + k) ;;
          upd a (bs1 * d1 + (bs0 * i + k) mod bs1) v)
        (list_prod (seq 0 (length dofs0)) (seq 0 bs0)) a)
    (combine cells0 cells1) array1.

(** interpolate.h:367-452: [dim0] is the space dimension of the first element, [im] the
    interpolation operator, one row for each dof of the second. *)
Definition interpolate_same_map (bs0 bs1 dim0 : nat) (im : list (list T)) (dofmap0 dofmap1 : list (list nat)) (transform0 transform1 : nat -> list T -> list T)
    (cells0 cells1 : list nat) (array0 array1 : list T) : option (list T) :=
  if negb (length cells0 =? length cells1) then None else
  ofold (fun a cc =>
      dofs0 <- nth_error dofmap0 (fst cc) ;;
      local0 <- gather bs0 dofs0 dim0 array0 ;;
      local1 <- interpolation_apply im (transform0 (fst cc) local0) ;;
      dofs1 <- nth_error dofmap1 (snd cc) ;;
      scatter_local bs1 dofs1 (transform1 (snd cc) local1) a)
    (combine cells0 cells1) array1.

(** Function.h:457-760.  [basis]: the values of the scalar basis functions at a point of a
    cell, one row for each function; [width] is [ushape[1]].  A cell that is negative in the
    code is [None] here. *)
Section Eval.
Variables (A : Type) (basis : nat -> A -> list (list T)).
Variables (bs_element space_dimension value_size bs_dof : nat) (symmetric : bool) (dofmap : list (list nat)) (v : list T).

(** Function.h:717-733 and 738-748: [u[at] += coefficients[bs_element * i + k] * basis_values(i, j)] *)
Definition add_to (coefficients : list T) (B : list (list T)) (k i j : nat) (u : list T) (at_ : nat) : option (list T) :=
  c <- nth_error coefficients (bs_element * i + k) ;;
  row <- nth_error B i ;;
  b <- nth_error row j ;;
  modify u at_ (fun s => add s (mul c b)).

(** Function.h:703-750 for one point *)
Definition eval_point (p width : nat) (coefficients : list T) (B : list (list T)) (u : list T) : option (list T) :=
  let n := matrix_size width in
  '(_, u') <- ofold (fun st k => let '(rr, u) := st in
      let '(row, rowstart) := next_row k rr in
      u' <- ofold (fun u ij => let '(i, j) := ij in
          if symmetric then
            u' <- add_to coefficients B k i j u (p * width + (j * bs_element + row * n + k - rowstart)) ;;
            if k - rowstart =? row then Some u'
            else add_to coefficients B k i j u' (p * width + (j * bs_element + row + n * (k - rowstart)))
          else add_to coefficients B k i j u (p * width + (j * bs_element + k)))
        (list_prod (seq 0 space_dimension) (seq 0 value_size)) u ;;
      Some ((row, rowstart), u'))
    (seq 0 bs_element) ((0, 0), u) ;;
  Some u'.

Definition eval (points : list A) (cells : list (option nat)) (u : list T) (width : nat) : option (list T) :=
  match cells with
  | [] => Some u
  | _ =>
    if negb (length u =? length points * width) || negb (length points =? length cells) then None else
    ofold (fun u pxc => let '(p, (x, oc)) := pxc in
        match oc with
        | None => Some u
        | Some c =>
          dofs <- nth_error dofmap c ;;
          coefficients <- gather bs_dof dofs (space_dimension * bs_element) v ;;
          eval_point p width coefficients (basis c x) u
        end)
      (combine (seq 0 (length points)) (combine points cells)) (repeat zero (length u))
  end.
End Eval.
End Interp.
