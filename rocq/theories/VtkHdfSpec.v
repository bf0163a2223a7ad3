(** VTKHDF files: what properties C90 and C91 refer to. *)
From Verif Require Import Base CellTypes CellsSpec XdmfSpec.
Open Scope nat_scope.

(** Global index of node [n] of process [r] *)
Definition global_of (size_local : nat -> nat) (ghosts : nat -> list nat) (r n : nat) : nat :=
  if n <? size_local r then before size_local r + n else nth (n - size_local r) (ghosts r) 0.
(** The nodes of the cells of type number [i] that process [r] owns *)
Definition owned_cells (size_local : nat -> nat) (ghosts : nat -> list nat) (num_cells : nat -> nat -> nat) (dofmap : nat -> nat -> list (list nat)) (r i : nat) : list nat :=
  concat (map (map (global_of size_local ghosts r)) (firstn (num_cells r i) (dofmap r i))).
(** Cells of degree [d] with [n] nodes that can be written and read: Lagrange cells, of degree 1 for prisms and pyramids *)
Definition readable (t : cell_type) (d n : nat) : Prop :=
  lagrange_nodes t (Z.of_nat d) (Z.of_nat n) /\ 1 <= d /\ (Z.of_nat n <= 65536)%Z /\ t <> Point /\ (t = Prism \/ t = Pyramid -> d = 1) /\ (t = Hexahedron -> n = (d + 1) * (d + 1) * (d + 1)).
(** Rows of the dof maps: there are no ghost cells, except of the last type. *)
Definition cells_fit (P : nat) (size_local : nat -> nat) (ghosts : nat -> list nat) (types : list (cell_type * nat)) (num_cells : nat -> nat -> nat) (dofmap : nat -> nat -> list (list nat)) : Prop :=
  forall r i t nn, r < P -> nth_error types i = Some (t, nn) ->
    num_cells r i <= length (dofmap r i) /\ (S i < length types -> length (dofmap r i) = num_cells r i) /\
    forall row, In row (firstn (num_cells r i) (dofmap r i)) -> length row = nn /\ forall n, In n row -> n < size_local r + length (ghosts r).
(** The first [gdim] of the three coordinates of the points that process [r] owns *)
Definition owned_points {U} (gdim : nat) (size_local : nat -> nat) (x : nat -> list U) (r : nat) : list U :=
  concat (map (fun i => firstn gdim (skipn (3 * i) (x r))) (seq 0 (size_local r))).
