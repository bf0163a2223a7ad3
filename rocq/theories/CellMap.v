(** Model of common/math.h and of the geometry maps of fem/CoordinateElement.h: Jacobians,
    their determinants and inverses, push-forward and pull-back of points.
    Simplifications: real numbers instead of floating point numbers, so that [std::fma] is exact;
    a division by zero gives [None] instead of infinities; arrays are functions of their
    indices, with the extents as arguments. *)
From Coq Require Import Reals.
From Verif Require Import Base.
Open Scope nat_scope.

Notation mat := (nat -> nat -> R).
(** [c += f 0; c += f 1; ...] *)
Definition accumulate (n : nat) (f : nat -> R) (c : R) : R := fold_left (fun c k => (c + f k)%R) (seq 0 n) c.
Definition quotient (a b : R) : option R := if Req_EM_T b 0 then None else Some (a / b)%R.

(** difference_of_products, math.h:40-47 *)
Definition difference_of_products (a b c d : R) : R :=
  let w := (b * c)%R in
  let err := (- b * c + w)%R in
  let diff := (a * d + - w)%R in
  (diff + err)%R.

(** det, math.h:54-84 *)
Definition det (n : nat) (A : mat) : option R :=
  match n with
  | 1 => Some (A 0 0)
  | 2 => Some (difference_of_products (A 0 0) (A 0 1) (A 1 0) (A 1 1))
  | 3 =>
    let w0 := difference_of_products (A 1 1) (A 1 2) (A 2 1) (A 2 2) in
    let w1 := difference_of_products (A 1 0) (A 1 2) (A 2 0) (A 2 2) in
    let w2 := difference_of_products (A 1 0) (A 1 1) (A 2 0) (A 2 1) in
    let w3 := difference_of_products (A 0 0) (A 0 1) w1 w0 in
    Some (A 0%nat 2%nat * w2 + w3)%R
  | _ => None
  end.

(** inv, math.h:93-140 *)
Definition inv (n : nat) (A : mat) : option mat :=
  match n with
  | 1 => b <- quotient 1 (A 0 0) ;; Some (fun _ _ => b)
  | 2 =>
    d <- det 2 A ;; idet <- quotient 1 d ;;
    Some (fun i j => match i, j with
      | 0, 0 => Rmult idet (A 1 1)
      | 0, _ => Rmult (- idet) (A 0 1)
      | _, 0 => Rmult (- idet) (A 1 0)
      | _, _ => Rmult idet (A 0 0)
      end)
  | 3 =>
    let w0 := difference_of_products (A 1 1) (A 1 2) (A 2 1) (A 2 2) in
    let w1 := difference_of_products (A 1 0) (A 1 2) (A 2 0) (A 2 2) in
    let w2 := difference_of_products (A 1 0) (A 1 1) (A 2 0) (A 2 1) in
    let w3 := difference_of_products (A 0 0) (A 0 1) w1 w0 in
    idet <- quotient 1 (A 0%nat 2%nat * w2 + w3)%R ;;
    Some (fun i j => Rmult (match i, j with
      | 0, 0 => w0
      | 1, 0 => Ropp w1
      | _, 0 => w2
      | 0, 1 => difference_of_products (A 0 2) (A 0 1) (A 2 2) (A 2 1)
      | 0, _ => difference_of_products (A 0 1) (A 0 2) (A 1 1) (A 1 2)
      | 1, 1 => difference_of_products (A 0 0) (A 0 2) (A 2 0) (A 2 2)
      | 1, _ => difference_of_products (A 1 0) (A 0 0) (A 1 2) (A 0 2)
      | _, 1 => difference_of_products (A 2 0) (A 0 0) (A 2 1) (A 0 1)
      | _, _ => difference_of_products (A 0 0) (A 1 0) (A 0 1) (A 1 1)
      end) idet)
  | _ => None
  end.

(** dot, math.h:152-170; [K] is the extent that is summed over. *)
Definition dot (K : nat) (A B C : mat) : mat := fun i j => accumulate K (fun k => (A i k * B k j)%R) (C i j).
Definition dot_transposed (K : nat) (A B C : mat) : mat := fun i j => accumulate K (fun k => (A k i * B j k)%R) (C i j).
Definition zeros : mat := fun _ _ => 0%R.

(** pinv, math.h:180-230; [A] has [m] rows and [n] columns. *)
Definition pinv (m n : nat) (A : mat) : option mat :=
  if m <=? n then None
  else if n =? 2 then
    if m =? 3 then
      let AT : mat := fun i j => A j i in
      Inv <- inv 2 (dot 3 AT A zeros) ;; Some (dot 2 Inv AT zeros)
    else None
  else if n =? 1 then
    let res := accumulate m (fun i => (A i 0%nat * A i 0%nat)%R) 0%R in
    q <- quotient 1 res ;; Some (fun j i => (q * A i j)%R)
  else None.

(** compute_jacobian, CoordinateElement.h:132-136 *)
Definition compute_jacobian (nodes : nat) (dphi geometry : mat) : mat := dot_transposed nodes geometry dphi zeros.
(** compute_jacobian_inverse, CoordinateElement.h:141-150 *)
Definition compute_jacobian_inverse (gdim tdim : nat) (J : mat) : option mat :=
  if gdim =? tdim then inv gdim J else pinv gdim tdim J.
(** compute_jacobian_determinant, CoordinateElement.h:157-181 *)
Definition compute_jacobian_determinant (gdim tdim : nat) (J : mat) : option R :=
  if gdim =? tdim then det gdim J
  else
    let B : mat := fun i j => J j i in
    d <- det tdim (dot gdim B J zeros) ;; Some (sqrt d).

(** push_forward, CoordinateElement.h:193-202; row [p] of [phi] has the basis functions at
    point [p]. *)
Definition push_forward (nodes : nat) (geometry phi : mat) : mat := dot nodes phi geometry zeros.
(** pull_back_affine, CoordinateElement.h:214-230 *)
Definition pull_back_affine (gdim : nat) (K : mat) (x0 : nat -> R) (x : mat) : mat :=
  fun p i => accumulate gdim (fun j => (K i j * (x p j - x0 j))%R) 0%R.

(** The basis of degree one on a simplex and its derivatives (Basix): node 0 is at the
    origin, node [S i] is one along axis [i]. *)
Definition p1_phi (tdim : nat) (X : nat -> R) (k : nat) : R :=
  match k with 0 => (1 - accumulate tdim X 0)%R | S i => X i end.
Definition p1_dphi (j k : nat) : R :=
  match k with 0 => (-1)%R | S i => if i =? j then 1%R else 0%R end.

(** A simplex with affine geometry, Function.h:607-615 *)
Definition cell_push_forward (tdim : nat) (geometry X : mat) : mat :=
  push_forward (tdim + 1) geometry (fun p => p1_phi tdim (X p)).
Definition cell_pull_back (gdim tdim : nat) (geometry x : mat) : option mat :=
  let J := compute_jacobian (tdim + 1) p1_dphi geometry in
  K <- compute_jacobian_inverse gdim tdim J ;;
  Some (pull_back_affine gdim K (geometry 0) x).

(** pull_back_nonaffine, CoordinateElement.cpp:86-188, for one point [x]; [tabulate] gives
    the basis functions and their derivatives at a point. *)
Section Newton.
Variables (gdim tdim nodes : nat) (tabulate : (nat -> R) -> (nat -> R) * mat) (geometry : mat) (tol : R).
Definition step (x Xk : nat -> R) : option (nat -> R) :=
  let '(phi, dphi) := tabulate Xk in
  let xk := fun j => accumulate nodes (fun i => (geometry i j * phi i)%R) 0%R in
  K <- compute_jacobian_inverse gdim tdim (compute_jacobian nodes dphi geometry) ;;
  Some (fun i => accumulate gdim (fun j => (K i j * (x j - xk j))%R) 0%R).
Fixpoint newton (maxit : nat) (x Xk : nat -> R) : option (nat -> R) :=
  match maxit with
  | 0 => None
  | S m =>
    dX <- step x Xk ;;
    let Xk := fun i => (dX i + Xk i)%R in
    if Rlt_dec (sqrt (accumulate tdim (fun i => (dX i * dX i)%R) 0)) tol then Some Xk else newton m x Xk
  end.
Definition pull_back_nonaffine (maxit : nat) (xs : list (nat -> R)) : option (list (nat -> R)) :=
  omap (fun x => newton maxit x (fun _ => 0%R)) xs.
End Newton.

(** Parts of the working array (start and size) in [pull_back_nonaffine], CoordinateElement.cpp:
    105-136: dphi, Xk, dX, xk, J, K, basis *)
Definition scratch_nonaffine (gdim tdim nodes : nat) : list (nat * nat) :=
  [ (0, tdim * nodes);
    (tdim * nodes, tdim);
    (tdim * (nodes + 1), tdim);
    (tdim * (nodes + 2), gdim);
    (tdim * (nodes + 2) + gdim, gdim * tdim);
    (tdim * (nodes + 2) + gdim * (tdim + 1), tdim * gdim);
    (tdim * (nodes + 2) + gdim * (2 * tdim + 1), (tdim + 1) * nodes) ].
(** The same for affine cells, python/dolfinx/wrappers/dolfinx_wrappers/fem.h:1102-1113: J, K,
    x_ref, phi *)
Definition scratch_affine (gdim tdim nodes : nat) : list (nat * nat) :=
  [ (0, gdim * tdim); (gdim * tdim, tdim * gdim); (2 * gdim * tdim, tdim); (2 * gdim * tdim + tdim, (tdim + 1) * nodes) ].
(** pull_back_working_size, CoordinateElement.cpp:242-250 *)
Definition pull_back_working_size (affine : bool) (gdim tdim nodes : nat) : nat :=
  if affine then tdim * (2 * gdim + 1) + (tdim + 1) * nodes
  else tdim * (2 * gdim + 2 * nodes + 2) + gdim + nodes.
