(** C70: the meshes of intervals, rectangles and boxes tile them. *)
From Coq Require Import Reals Lra.
From Verif Require Import Base BaseProofs Generation GenerationSpec GenerationProofs GridTri.
Open Scope nat_scope.

(** The processes of [subcomm] together pass all points and cells of a tiling of the box, in
    any number [Q] of processes; the other processes pass nothing. *)
Theorem C70_box : forall (eps : R) (Q nx ny nz : nat) (x0 y0 z0 x1 y1 z1 : R) (celltype : shape) (comm : nat -> nat * nat),
  0 < Q -> is_solid celltype = true -> 1 <= nx -> 1 <= ny -> 1 <= nz ->
  (x0 < x1)%R -> (y0 < y1)%R -> (z0 < z1)%R ->
  (2 * eps <= (x1 - x0) / INR nx)%R -> (2 * eps <= (y1 - y0) / INR ny)%R -> (2 * eps <= (z1 - z0) / INR nz)%R ->
  (celltype = prism -> forall s, s < Q -> comm s = (s, Q)) ->
  exists (xs : nat -> list (list R)) (cs : nat -> list (list nat)),
    (forall s, s < Q ->
      create_box eps (comm s) (Some (s, Q)) (x0, y0, z0) (x1, y1, z1) (nx, ny, nz) celltype = Some (xs s, cs s)) /\
    let X := concat (map xs (seq 0 Q)) in
    let cells := concat (map cs (seq 0 Q)) in
    length X = (nx + 1) * (ny + 1) * (nz + 1) /\ length cells = box_count celltype * (nx * ny * nz) /\
    tiling (box_weights celltype) X cells (corner [x0; y0; z0]) (corner [x1; y1; z1]).
Proof. exact box_statement. Qed.
Print Assumptions C70_box.
Theorem C70_box_others : forall (eps : R) (comm : nat * nat) (nx ny nz : nat) (x0 y0 z0 x1 y1 z1 : R) (celltype : shape),
  is_solid celltype = true -> 1 <= nx -> 1 <= ny -> 1 <= nz -> (x0 < x1)%R -> (y0 < y1)%R -> (z0 < z1)%R ->
  create_box eps comm None (x0, y0, z0) (x1, y1, z1) (nx, ny, nz) celltype = Some ([], []).
Proof. exact box_others. Qed.
Print Assumptions C70_box_others.
Example C70_box_case : exists (xs : nat -> list (list R)) (cs : nat -> list (list nat)),
  (forall s, s < 2 -> create_box (/ 1000) (s, 3) (Some (s, 2)) (0, 0, 0)%R (1, 2, 3)%R (2, 1, 3) tetrahedron = Some (xs s, cs s)) /\
  length (concat (map xs (seq 0 2))) = 24 /\ length (concat (map cs (seq 0 2))) = 36.
Proof.
  destruct (C70_box (/ 1000) 2 2 1 3 0 0 0 1 2 3 tetrahedron (fun s => (s, 3))) as (xs & cs & H & LX & LC & _); try lia; try reflexivity; try (cbn; lra); [discriminate|].
  exists xs, cs. split; [exact H|]. split; [exact LX|exact LC].
Qed.

(** Triangles: process 0 passes a tiling of the rectangle, with the diagonals that were asked
    for. *)
Theorem C70_triangles : forall (eps : R) (nx ny gdim : nat) (x0 y0 x1 y1 : R) (diagonal : diagonal_type),
  1 <= nx -> 1 <= ny -> 2 <= gdim <= 3 -> (x0 < x1)%R -> (y0 < y1)%R -> (eps <= x1 - x0)%R -> (eps <= y1 - y0)%R ->
  (forall rank, 0 < rank -> create_rectangle eps rank (x0, y0) (x1, y1) (nx, ny) triangle diagonal gdim = Some ([], [])) /\
  exists X cells, create_rectangle eps 0 (x0, y0) (x1, y1) (nx, ny) triangle diagonal gdim = Some (X, cells) /\
    length X = tri_points diagonal nx ny /\ length cells = tri_count diagonal * (nx * ny) /\ (forall x, In x X -> length x = gdim) /\
    tiling (simplex_weights 3) X cells (corner [x0; y0]) (corner [x1; y1]) /\
    forall ix iy, ix < nx -> iy < ny ->
      let g := grid_point x0 y0 x1 y1 nx ny in
      (joined X cells (g ix iy) (g (ix + 1) (iy + 1)) <-> rising diagonal ix iy = true) /\
      (joined X cells (g (ix + 1) iy) (g ix (iy + 1)) <-> falling diagonal ix iy = true).
Proof. exact tri_statement. Qed.
Print Assumptions C70_triangles.
Example C70_triangles_case : exists X cells,
  create_rectangle (/ 1000) 0 (-1, 0)%R (1, 1)%R (3, 2) triangle crossed 3 = Some (X, cells) /\ length X = 18 /\ length cells = 24.
Proof.
  destruct (C70_triangles (/ 1000) 3 2 3 (-1) 0 1 1 crossed) as (_ & X & cells & H & LX & LC & _); try lia; try lra.
  exists X, cells. split; [exact H|]. split; [exact LX|exact LC].
Qed.
Example C70_diagonals_case :
  tri_cells left_right 2 2 = [[0; 1; 4]; [0; 3; 4]; [1; 2; 4]; [2; 4; 5]; [3; 4; 6]; [4; 6; 7]; [4; 5; 8]; [4; 7; 8]].
Proof. reflexivity. Qed.

Theorem C70_quadrilaterals : forall (eps : R) (nx ny gdim : nat) (x0 y0 x1 y1 : R) (diagonal : diagonal_type),
  1 <= nx -> 1 <= ny -> 2 <= gdim <= 3 -> (x0 < x1)%R -> (y0 < y1)%R ->
  (forall rank, 0 < rank -> create_rectangle eps rank (x0, y0) (x1, y1) (nx, ny) quadrilateral diagonal gdim = Some ([], [])) /\
  exists X cells, create_rectangle eps 0 (x0, y0) (x1, y1) (nx, ny) quadrilateral diagonal gdim = Some (X, cells) /\
    length X = (nx + 1) * (ny + 1) /\ length cells = nx * ny /\ (forall x, In x X -> length x = gdim) /\
    tiling quad_weights X cells (corner [x0; y0]) (corner [x1; y1]).
Proof. exact quad_statement. Qed.
Print Assumptions C70_quadrilaterals.
Example C70_quadrilaterals_case : exists X cells,
  create_rectangle (/ 1000) 0 (-1, 0)%R (1, 1)%R (3, 2) quadrilateral right 2 = Some (X, cells) /\ length X = 12 /\ length cells = 6.
Proof.
  destruct (C70_quadrilaterals (/ 1000) 3 2 2 (-1) 0 1 1 right) as (_ & X & cells & H & LX & LC & _); try lia; try lra.
  exists X, cells. split; [exact H|]. split; [exact LX|exact LC].
Qed.

Theorem C70_interval : forall (eps : R) (n gdim : nat) (a b : R),
  1 <= n -> 1 <= gdim <= 3 -> (a < b)%R -> (eps <= b - a)%R ->
  (forall rank, 0 < rank -> create_interval eps rank n a b gdim = Some ([], [])) /\
  exists X cells, create_interval eps 0 n a b gdim = Some (X, cells) /\
    length X = n + 1 /\ length cells = n /\ (forall x, In x X -> length x = gdim) /\
    tiling (simplex_weights 2) X cells (corner [a]) (corner [b]).
Proof. exact interval_statement. Qed.
Print Assumptions C70_interval.
Example C70_interval_case : exists X cells,
  create_interval (/ 1000) 0 5 (-1)%R 1%R 2 = Some (X, cells) /\ length X = 6 /\ cells = [[0; 1]; [1; 2]; [2; 3]; [3; 4]; [4; 5]].
Proof.
  destruct (C70_interval (/ 1000) 5 2 (-1) 1) as (_ & X & cells & H & LX & LC & _); try lia; try lra.
  exists X, cells. split; [exact H|]. split; [exact LX|]. revert H. unfold create_interval. cbn [Nat.ltb Nat.leb orb Nat.eqb].
  rewrite less_true, less_false by (try (rewrite Rabs_minus_sym, Rabs_pos_eq); lra). cbn [negb create_interval_cells]. intro H. injection H as _ <-. reflexivity.
Qed.

(** Prisms built by some of the processes only: cells are lost, because they are divided over
    all processes. *)
Theorem C70_prism_subcomm_refuted : exists X cells,
  create_box (/ 1000) (0, 2) (Some (0, 1)) (0, 0, 0)%R (2, 1, 1)%R (2, 1, 1) prism = Some (X, cells) /\
  create_box (/ 1000) (1, 2) None (0, 0, 0)%R (2, 1, 1)%R (2, 1, 1) prism = Some ([], []) /\
  length cells = 2 /\ ~ tiling prism_weights X cells (corner [0; 0; 0])%R (corner [2; 1; 1])%R.
Proof. exact prism_subcomm. Qed.
Print Assumptions C70_prism_subcomm_refuted.

(** The documentation says that the order of the two points is not important; in the other
    order they are refused. *)
Theorem C70_point_order_refuted : forall eps comm sub rank nx ny nz x0 y0 z0 x1 y1 z1 celltype diagonal gdim,
  (x0 < x1)%R ->
  create_box eps comm sub (x1, y1, z1) (x0, y0, z0) (nx, ny, nz) celltype = None /\
  create_rectangle eps rank (x1, y1) (x0, y0) (nx, ny) celltype diagonal gdim = None /\
  create_interval eps rank nx x1 x0 gdim = None.
Proof. exact point_order. Qed.
Print Assumptions C70_point_order_refuted.
