(** Specification for the node orderings of io/cells: permutations of the nodes, inverse
    permutations and the node counts of Lagrange cells. *)
From Verif Require Import Base CellTypes.
Open Scope Z_scope.

(** [p] lists every one of [0], ..., [n - 1] once. *)
Definition is_permutation (p : list Z) (n : Z) : Prop :=
  NoDup p /\ (forall x, In x p <-> 0 <= x < n).
(** Position [i] of [p] has [x] exactly if position [x] of [q] has [i]. *)
Definition inverse (p q : list Z) : Prop :=
  forall i x : nat, nth_error p i = Some (Z.of_nat x) <-> nth_error q x = Some (Z.of_nat i).

(** The number of nodes of a Lagrange cell of degree [d], and of the serendipity cells. *)
Inductive lagrange_nodes : cell_type -> Z -> Z -> Prop :=
| ln_point d : lagrange_nodes Point d 1
| ln_interval d : lagrange_nodes Interval d (d + 1)
| ln_triangle d n : 2 * n = (d + 1) * (d + 2) -> lagrange_nodes Triangle d n
| ln_tetrahedron d n : 6 * n = (d + 1) * (d + 2) * (d + 3) -> lagrange_nodes Tetrahedron d n
| ln_quadrilateral d : lagrange_nodes Quadrilateral d ((d + 1) * (d + 1))
| ln_hexahedron d : lagrange_nodes Hexahedron d ((d + 1) * (d + 1) * (d + 1))
| ln_hexahedron_20 : lagrange_nodes Hexahedron 2 20
| ln_prism_1 : lagrange_nodes Prism 1 6
| ln_prism_2 n : n = 15 \/ n = 18 -> lagrange_nodes Prism 2 n
| ln_pyramid_1 : lagrange_nodes Pyramid 1 5
| ln_pyramid_2 n : n = 13 \/ n = 14 -> lagrange_nodes Pyramid 2 n.
(** The cells that are read from Gmsh: degrees up to 2 for all and 3 for some. *)
Inductive gmsh_nodes : cell_type -> Z -> Prop :=
| gn_point : gmsh_nodes Point 1
| gn_interval d : 1 <= d -> gmsh_nodes Interval (d + 1)
| gn_lagrange t d n : t = Triangle \/ t = Tetrahedron \/ t = Quadrilateral -> 1 <= d <= 3 -> lagrange_nodes t d n -> gmsh_nodes t n
| gn_hexahedron d : 1 <= d <= 2 -> gmsh_nodes Hexahedron ((d + 1) * (d + 1) * (d + 1))
| gn_other t d n : t = Prism \/ t = Pyramid -> lagrange_nodes t d n -> gmsh_nodes t n.

(** Row [c] of [new] is row [c] of [cells] with node [p i] at position [i]. *)
Definition permuted_rows {A} (cells new : list A) (rows cols : nat) (p : list Z) : Prop :=
  length new = (rows * cols)%nat /\
  forall c i x : nat, (c < rows)%nat -> (i < cols)%nat -> nth_error p i = Some (Z.of_nat x) ->
    nth_error new (c * cols + i) = nth_error cells (c * cols + x).
