(** C52: the VTK and Gmsh orderings of the nodes of a cell. *)
From Verif Require Import Base CellTypes Cells CellsSpec CellsInverse.
Open Scope Z_scope.

(** For every cell type and every degree the ordering for VTK is a permutation of the nodes, and
    [transpose] gives its inverse, the list that the VTK writers use. *)
Theorem C52_perm_vtk : forall t d n, lagrange_nodes t d n -> 1 <= d -> n <= 65536 ->
  exists p q, perm_vtk t n = Some p /\ transpose p = Some q
    /\ is_permutation p n /\ is_permutation q n /\ inverse p q.
Proof. exact perm_vtk_statement. Qed.
Print Assumptions C52_perm_vtk.

Example C52_perm_vtk_example :
  lagrange_nodes Tetrahedron 5 56 /\
  perm_vtk Triangle 15 = Some [0; 1; 2; 6; 7; 8; 11; 10; 9; 3; 4; 5; 12; 13; 14] /\
  transpose [0; 1; 2; 6; 7; 8; 11; 10; 9; 3; 4; 5; 12; 13; 14] = Some [0; 1; 2; 9; 10; 11; 3; 4; 5; 8; 7; 6; 12; 13; 14].
Proof. split; [constructor; reflexivity|]. split; vm_compute; reflexivity. Qed.

(** A number of nodes that is not one of a Lagrange cell is rejected. *)
Theorem C52_unknown : forall t n p, t <> Point -> 1 < n -> perm_vtk t n = Some p ->
  exists d, 1 <= d /\ lagrange_nodes t d n.
Proof. exact perm_vtk_known. Qed.
Print Assumptions C52_unknown.

Example C52_unknown_example :
  perm_vtk Triangle 7 = None /\ perm_vtk Hexahedron 26 = None /\ perm_vtk Prism 40 = None.
Proof. repeat split; vm_compute; reflexivity. Qed.

(** The entries have 16 bits: with more nodes no ordering is a permutation. *)
Theorem C52_wide_refuted : forall t n p, 65536 < n -> perm_vtk t n = Some p -> ~ is_permutation p n.
Proof. exact wide_statement. Qed.
Print Assumptions C52_wide_refuted.

(** With one node (degree 0) the orderings are those of more nodes, with a repeated one for
    quadrilaterals; for hexahedra transpose writes out of bounds. *)
Theorem C52_constant_refuted :
  perm_vtk Triangle 1 = Some [0; 1; 2] /\ perm_vtk Quadrilateral 1 = Some [4; 1; 3; 2; 0] /\
  vtk_map Quadrilateral 1 = Some [0; 1; 3; 2; 0] /\ perm_vtk Hexahedron 1 = None.
Proof. repeat split; vm_compute; reflexivity. Qed.
Print Assumptions C52_constant_refuted.

(** [transpose] inverts every permutation, and is its own inverse. *)
Theorem C52_transpose : forall p n, 0 <= n <= 65536 -> is_permutation p n ->
  exists q, transpose p = Some q /\ is_permutation q n /\ inverse p q /\ transpose q = Some p.
Proof. exact transpose_statement. Qed.
Print Assumptions C52_transpose.

Example C52_transpose_example : transpose [2; 0; 3; 1] = Some [1; 3; 0; 2].
Proof. reflexivity. Qed.

(** The orderings for Gmsh: every supported cell has a permutation, and every other number of
    nodes is rejected. *)
Theorem C52_perm_gmsh : forall t n, n <= 65536 ->
  (gmsh_nodes t n -> exists p, perm_gmsh t n = Some p /\ is_permutation p n) /\
  (forall p, t <> Point -> perm_gmsh t n = Some p -> is_permutation p n) /\
  (forall p, t <> Point -> t <> Interval -> perm_gmsh t n = Some p -> gmsh_nodes t n).
Proof.
  exact (fun t n Hn => conj (fun H => gmsh_works t n H Hn)
    (conj (fun p Ht E => gmsh_statement t n p Ht Hn E) (fun p => gmsh_known t n p))).
Qed.
Print Assumptions C52_perm_gmsh.

Example C52_perm_gmsh_example :
  gmsh_nodes Tetrahedron 20 /\ perm_gmsh Tetrahedron 10 = Some [0; 1; 2; 3; 8; 9; 5; 7; 6; 4] /\ perm_gmsh Triangle 15 = None.
Proof.
  split; [apply (gn_lagrange Tetrahedron 3 20); [tauto|lia|constructor; reflexivity]|]. split; reflexivity.
Qed.

(** Nodes of all cells are permuted, and back with the inverse. *)
Theorem C52_apply_permutation : forall (A : Type) (cells : list A) rows cols p,
  length cells = (rows * cols)%nat -> is_permutation p (Z.of_nat cols) ->
  exists new, apply_permutation cells rows cols p = Some new /\ permuted_rows cells new rows cols p /\
    forall q, is_permutation q (Z.of_nat cols) -> inverse p q -> apply_permutation new rows cols q = Some cells.
Proof. exact apply_statement. Qed.
Print Assumptions C52_apply_permutation.

Example C52_apply_permutation_example :
  apply_permutation [10; 11; 12; 20; 21; 22] 2 3 [1; 2; 0] = Some [11; 12; 10; 21; 22; 20] /\
  apply_permutation [11; 12; 10; 21; 22; 20] 2 3 [2; 0; 1] = Some [10; 11; 12; 20; 21; 22] /\
  apply_permutation [11; 12; 10; 21; 22; 20] 2 3 [1; 0] = None.
Proof. repeat split; reflexivity. Qed.

(** An array or a permutation of another size is rejected. *)
Theorem C52_apply_permutation_size : forall (A : Type) (cells : list A) rows cols p,
  length cells <> (rows * cols)%nat \/ length p <> cols -> apply_permutation cells rows cols p = None.
Proof. exact @apply_size. Qed.
Print Assumptions C52_apply_permutation_size.

Example C52_apply_permutation_size_example : apply_permutation [11; 12; 10; 21; 22; 20] 2 3 [0; 1; 2; 1] = None.
Proof. apply C52_apply_permutation_size. right. discriminate. Qed.
