(** The points of the degrees of freedom, for property C83. *)
From Verif Require Import Base InterpSpec NonMatchingSpec DofCoords.
Open Scope nat_scope.

Section Spec.
Variables (T : Type) (zero : T) (add mul : T -> T -> T) (gdim : nat) (x_g : list T) (types : list (dof_cells T)).

(** [p 0], [p 1], ... are the coordinates of an interpolation point of dof [d], seen from some
    cell *)
Definition has_point (d : nat) (p : nat -> T) : Prop :=
  exists t c j nodes dofs row, In t types /\ c < dc_ncells T t /\ nth_error (dc_xd T t) c = Some nodes /\ nth_error (dc_dofs T t) c = Some dofs /\
    nth_error dofs j = Some d /\ nth_error (dc_phi T t) j = Some row /\ forall k, p k = node_sum T zero add mul row nodes x_g k.

(** Point evaluations without transformations, as for Lagrange elements, and arrays of the
    sizes that belong together.  [scalar_dofs] is the number of points of the first element. *)
Definition cells_fit (scalar_dofs num_dofs : nat) (t : dof_cells T) : Prop :=
  dc_ident T t = true /\ (forall c x, dc_transform T t c x = x) /\ length (dc_phi T t) <= scalar_dofs /\
  exists nd, (forall row, In row (dc_phi T t) -> length row = nd) /\
  forall c, c < dc_ncells T t -> exists nodes dofs, nth_error (dc_xd T t) c = Some nodes /\ nth_error (dc_dofs T t) c = Some dofs /\
    length nodes = nd /\ (forall v, In v nodes -> 3 * v + 3 <= length x_g) /\ length dofs = length (dc_phi T t) /\ forall d, In d dofs -> d < num_dofs.

(** All cells with a dof see it at the same point. *)
Definition points_agree : Prop := forall d p p', has_point d p -> has_point d p' -> forall k, k < gdim -> p k = p' k.
End Spec.

(** A function that looks at one point after the other; the three coordinates are in three rows. *)
Definition pointwise {T} (zero : T) (marker_fn : list T -> list bool) (f : T -> T -> T -> bool) : Prop :=
  forall x n, length x = 3 * n -> marker_fn x = map (fun i => f (nth i x zero) (nth (n + i) x zero) (nth (2 * n + i) x zero)) (seq 0 n).
