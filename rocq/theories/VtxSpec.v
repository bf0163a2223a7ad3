(** VTX files: what property C92 refers to. *)
From Verif Require Import Base.
Open Scope nat_scope.

(** Index [d] of a process that owns the [size_local] indices from [range0] on has global index [g]. *)
Definition has_global (range0 size_local : nat) (ghosts : list nat) (d g : nat) : Prop :=
  (d < size_local /\ g = range0 + d) \/ (size_local <= d /\ nth_error ghosts (d - size_local) = Some g).
(** The first [num_cells] rows of [dofmap], each after its length, where node [i] of a cell is at position [p i] *)
Definition packed_cells (num_cells num_nodes : nat) (p : list Z) (dofmap : list (list nat)) (cells : list nat) : Prop :=
  length cells = num_cells * (num_nodes + 1) /\
  forall c dofs, c < num_cells -> nth_error dofmap c = Some dofs -> nth_error cells (c * (num_nodes + 1)) = Some num_nodes /\
    forall i v, nth_error p i = Some (Z.of_nat v) -> nth_error cells (c * (num_nodes + 1) + 1 + v) = nth_error dofs i.
(** The number of components of a row: those of the value shape, and at least 1, 3, 9, ... for scalars, vectors, tensors, ... *)
Definition padded_width (value_shape : list nat) : nat := Nat.max (fold_right Nat.mul 1 value_shape) (3 ^ length value_shape).
