(** What VTK files should hold for functions. *)
From Verif Require Import Base.
Open Scope nat_scope.

(** Node [i] of cell [c] *)
Definition node (dofmap : list (list nat)) (c i d : nat) : Prop := exists dofs, nth_error dofmap c = Some dofs /\ nth_error dofs i = Some d.
(** Cells have as many nodes in both spaces, all of them are among the [n] local ones, and nodes shared in the first space are shared in the second. *)
Definition same_nodes (num_cells n : nat) (dofmap0 dofmap : list (list nat)) : Prop :=
  (forall c, c < num_cells -> exists dofs0 dofs, nth_error dofmap0 c = Some dofs0 /\ nth_error dofmap c = Some dofs /\ length dofs0 = length dofs) /\
  (forall c i d0 d, node dofmap0 c i d0 -> node dofmap c i d -> d0 < n /\ d < n) /\
  (forall c c' i i' d0 d d', node dofmap0 c i d0 -> node dofmap0 c' i' d0 -> node dofmap c i d -> node dofmap c' i' d' -> d = d').
(** [row] of [data], of width [nc], holds block [d] of [u] and zeros. *)
Definition row_holds {T} (zero : T) (nc bs : nat) (u data : list T) (row d : nat) : Prop :=
  forall j, j < nc -> nth_error data (row * nc + j) = if j <? bs then nth_error u (d * bs + j) else Some zero.
(** The points are the nodes of the first space: at each node of each cell is the value that the function has there. *)
Definition point_values {T} (zero : T) (num_cells nc bs : nat) (dofmap0 dofmap : list (list nat)) (u data : list T) : Prop :=
  forall c i d0 d, c < num_cells -> node dofmap0 c i d0 -> node dofmap c i d -> row_holds zero nc bs u data d0 d.
