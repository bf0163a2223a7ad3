(** C71: reference coordinates, Jacobians and their inverses. *)
From Coq Require Import Reals Lra.
From Verif Require Import Base BaseProofs CellMap CellMapSpec CellMapProofs.
Open Scope nat_scope.

(** The inverse of a Jacobian exists if its columns are independent.  It is a left inverse; for
    square Jacobians also a right inverse, otherwise the one that solves the normal equations. *)
Theorem C71_inverse : forall gdim tdim J, dims gdim tdim -> independent gdim tdim J ->
  exists K, compute_jacobian_inverse gdim tdim J = Some K /\
    (forall i j, i < tdim -> j < tdim -> product gdim K J i j = identity i j) /\
    (gdim = tdim -> forall i j, i < gdim -> j < gdim -> product tdim J K i j = identity i j) /\
    (forall i j, i < tdim -> j < gdim -> product tdim (gram gdim J) K i j = J j i).
Proof. exact inverse_statement. Qed.
Print Assumptions C71_inverse.

(** The determinant is the usual one, or the root of that of the scalar products (the area or
    length of the image of the unit cube); it vanishes for dependent columns only. *)
Theorem C71_determinant : forall gdim tdim J, dims gdim tdim ->
  exists d, compute_jacobian_determinant gdim tdim J = Some d /\
    (gdim = tdim -> d = determinant tdim J) /\ (gdim <> tdim -> (0 <= d)%R) /\
    (d * d = determinant tdim (gram gdim J))%R /\ (d <> 0%R <-> independent gdim tdim J).
Proof. exact jacobian_determinant_ok. Qed.
Print Assumptions C71_determinant.

(** Simplices: pulling back gives the reference coordinates of every point of the (affine hull of
    the) cell, of other points those of the closest point. *)
Theorem C71_simplex : forall gdim tdim geometry x, dims gdim tdim -> independent gdim tdim (edges geometry) ->
  exists X, cell_pull_back gdim tdim geometry x = Some X /\
    (forall p Y, (forall i, i < gdim -> x p i = simplex_point tdim geometry Y i) -> forall i, i < tdim -> X p i = Y i) /\
    (gdim = tdim -> forall p i, i < gdim -> cell_push_forward tdim geometry X p i = x p i) /\
    (forall p Y, (distance2 gdim (x p) (simplex_point tdim geometry (X p)) <= distance2 gdim (x p) (simplex_point tdim geometry Y))%R).
Proof. exact affine_ok. Qed.
Print Assumptions C71_simplex.
Theorem C71_push_forward : forall tdim geometry X p i, cell_push_forward tdim geometry X p i = simplex_point tdim geometry (X p) i.
Proof. exact push_point. Qed.
Print Assumptions C71_push_forward.

(** Other cells: if Newton's method ends for a map that differs from its linearisation by at
    most L times the squared distance, the result is mapped to the point up to L tol^2. *)
Theorem C71_newton : forall gdim tdim nodes tabulate geometry tol maxit xs Xs L,
  let phi := fun X => fst (tabulate X) in
  let dphi := fun X => snd (tabulate X) in
  gdim = tdim -> (0 <= L)%R ->
  (forall Y Z i, i < gdim ->
    (Rabs (cell_point nodes geometry phi Z i - cell_point nodes geometry phi Y i - total tdim (fun j => cell_jacobian nodes geometry dphi Y i j * (Z j - Y j)))
     <= L * distance2 tdim Z Y)%R) ->
  pull_back_nonaffine gdim tdim nodes tabulate geometry tol maxit xs = Some Xs ->
  Forall2 (fun x X => forall i, i < gdim -> (Rabs (cell_point nodes geometry phi X i - x i) <= L * (tol * tol))%R) xs Xs.
Proof. exact nonaffine_close. Qed.
Print Assumptions C71_newton.

(** If the map is affine nevertheless (a parallelogram, a simplex of higher degree with straight
    edges), two iterations find the reference coordinates exactly. *)
Theorem C71_newton_affine : forall gdim tdim nodes tabulate geometry tol x0 J,
  let phi := fun X => fst (tabulate X) in
  let dphi := fun X => snd (tabulate X) in
  dims gdim tdim -> independent gdim tdim J ->
  (forall X i, i < gdim -> cell_point nodes geometry phi X i = (x0 i + total tdim (fun j => J i j * X j))%R) ->
  (forall X i j, i < gdim -> j < tdim -> cell_jacobian nodes geometry dphi X i j = J i j) ->
  (0 < tol)%R ->
  forall maxit xs Ys, 2 <= maxit -> Forall2 (fun x Y => forall i, i < gdim -> x i = cell_point nodes geometry phi Y i) xs Ys ->
  exists Xs, pull_back_nonaffine gdim tdim nodes tabulate geometry tol maxit xs = Some Xs /\ Forall2 (fun X Y => forall i, i < tdim -> X i = Y i) Xs Ys.
Proof. exact nonaffine_exact. Qed.
Print Assumptions C71_newton_affine.
(** The parts of the working array of the documented size do not overlap. *)
Theorem C71_working_array : forall gdim tdim nodes,
  parts_ok (pull_back_working_size false gdim tdim nodes) (scratch_nonaffine gdim tdim nodes) /\
  parts_ok (pull_back_working_size true gdim tdim nodes) (scratch_affine gdim tdim nodes).
Proof. exact scratch_ok. Qed.
Print Assumptions C71_working_array.

(** ** Cases *)
(** A triangle in space *)
Definition ex_triangle (k i : nat) : R :=
  match k, i with 0, 2 => 1%R | 1, 0 => 2%R | 1, 2 => 1%R | 2, 1 => 3%R | 2, 2 => 2%R | _, _ => 0%R end.
Example C71_triangle_case : dims 3 2 /\ independent 3 2 (edges ex_triangle) /\ ~ independent 3 2 (fun i j => INR i).
Proof.
  split; [unfold dims; lia|]. split.
  - intros c H j Hj. pose proof (H 0 ltac:(lia)) as E0. pose proof (H 1 ltac:(lia)) as E1. unfold edges in E0, E1. cbn [total ex_triangle] in E0, E1.
    destruct j as [|[|j]]; [lra|lra|lia].
  - intro H. specialize (H (fun j => if j =? 0 then 1%R else (-1)%R)). assert (1 = 0)%R; [|lra].
    apply H with (j := 0); [|lia]. intros i Hi. cbn [total Nat.eqb]. ring.
Qed.
(** All quadrilaterals in the plane meet the condition on the linearisation. *)
Definition q1 (X : nat -> R) : (nat -> R) * mat :=
  let x := X 0 in let y := X 1 in
  (fun k => match k with 0 => ((1 - x) * (1 - y))%R | 1 => (x * (1 - y))%R | 2 => ((1 - x) * y)%R | _ => (x * y)%R end,
   fun j k => match j, k with
     | 0, 0 => (y - 1)%R | 0, 1 => (1 - y)%R | 0, 2 => (- y)%R | 0, _ => y
     | _, 0 => (x - 1)%R | _, 1 => (- x)%R | _, 2 => (1 - x)%R | _, _ => x end).
Example C71_quadrilateral_case : forall geometry, exists L, (0 <= L)%R /\ forall Y Z i, i < 2 ->
  (Rabs (cell_point 4 geometry (fun X => fst (q1 X)) Z i - cell_point 4 geometry (fun X => fst (q1 X)) Y i
         - total 2 (fun j => cell_jacobian 4 geometry (fun X => snd (q1 X)) Y i j * (Z j - Y j)))
   <= L * distance2 2 Z Y)%R.
Proof.
  intro g. set (w := fun i => (g 0%nat i - g 1%nat i - g 2%nat i + g 3%nat i)%R). exists (Rabs (w 0%nat) + Rabs (w 1%nat))%R.
  pose proof (Rabs_pos (w 0)) as P0. pose proof (Rabs_pos (w 1)) as P1. split; [lra|]. intros Y Z i Hi.
  unfold cell_point, cell_jacobian, distance2, q1. cbn [total fst snd].
  set (a := (Z 0%nat - Y 0%nat)%R). set (b := (Z 1%nat - Y 1%nat)%R).
  match goal with |- (Rabs ?e <= _)%R => replace e with (w i * (a * b))%R by (unfold w, a, b; ring) end.
  rewrite Rabs_mult.
  assert (B : (Rabs (a * b) <= a * a + b * b)%R).
  { pose proof (Rle_0_sqr (a + b)). pose proof (Rle_0_sqr (a - b)). pose proof (Rle_0_sqr a). pose proof (Rle_0_sqr b). unfold Rsqr in *. apply Rabs_le. split; lra. }
  assert (W : (Rabs (w i) <= Rabs (w 0%nat) + Rabs (w 1%nat))%R) by (destruct i as [|[|i]]; [lra|lra|lia]).
  replace (0 + a * a + b * b)%R with (a * a + b * b)%R by ring.
  apply Rmult_le_compat; [apply Rabs_pos|apply Rabs_pos|exact W|exact B].
Qed.
(** The unit square: the map is the identity. *)
Definition ex_square (k i : nat) : R := match k, i with 1, 0 => 1%R | 2, 1 => 1%R | 3, _ => 1%R | _, _ => 0%R end.
Example C71_square_case : forall Y, exists X,
  pull_back_nonaffine 2 2 4 q1 ex_square (/ 1000) 2 [Y] = Some [X] /\ forall i, i < 2 -> X i = Y i.
Proof.
  intro Y. destruct (C71_newton_affine 2 2 4 q1 ex_square (/ 1000) (fun _ => 0%R) identity) with (maxit := 2) (xs := [Y]) (Ys := [Y]) as (Xs & E & H).
  - unfold dims; lia.
  - intros c H j Hj. pose proof (H j Hj) as E. rewrite total_pick in E by exact Hj. exact E.
  - intros X i Hi. destruct i as [|[|i]]; [| |lia]; unfold cell_point, q1, identity; cbn [total fst Nat.eqb ex_square]; ring.
  - intros X i j Hi Hj. destruct i as [|[|i]]; [| |lia]; (destruct j as [|[|j]]; [| |lia]); unfold cell_jacobian, q1, identity; cbn [total snd Nat.eqb ex_square]; ring.
  - lra.
  - lia.
  - constructor; [|constructor]. intros i Hi. destruct i as [|[|i]]; [| |lia]; unfold cell_point, q1; cbn [total fst ex_square]; ring.
  - inversion H as [|X ? Xs' ? HX HN]; subst. inversion HN; subst. exists X. auto.
Qed.
Example C71_working_case : pull_back_working_size false 3 2 9 = 64 /\ pull_back_working_size true 3 2 3 = 23.
Proof. split; reflexivity. Qed.
