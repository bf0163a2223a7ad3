(** Interpolation between meshes: what property C75 refers to. *)
From Verif Require Import Base InterpSpec PointOwnerSpec.

Section Spec.
Variables (T : Type) (zero : T) (add mul : T -> T -> T) (X : Type).
Variables (box_ranks candidates : nat -> X -> list nat) (dist2 : nat -> nat -> X -> Z) (tol max_val : Z).
(** The function on each process: [basis q c x] has the values at [x] of the [dim] scalar basis functions of cell [c]
    of process [q], [bs] coefficients for each. *)
Variables (basis : nat -> nat -> X -> list (list T)) (bs dim bs_dof : nat) (symmetric : bool) (n : nat) (dofmap : nat -> list (list nat)) (v : nat -> list T).

(** Component [comp] of the function of process [q] at [x], as seen from its cell [c]. *)
Definition cell_value (q c : nat) (x : X) (comp : nat) (w : T) : Prop :=
  exists k j, holds symmetric n bs comp k j /\
    w = expansion T zero add mul bs dim (cell_coefficients T zero bs_dof (dofmap q) (dim * bs) (v q) c) (basis q c x) k j.
(** Component [comp] at the point [x] asked for by process [r]: the value in the cell the point is given
    to, whatever process has it (property C68); zero if there is none. *)
Definition point_value (r : nat) (x : X) (comp : nat) (w : T) : Prop :=
  (exists q c, given_to X box_ranks candidates dist2 tol max_val r x q c /\ cell_value q c x comp w) \/
  given_to_none X box_ranks candidates dist2 max_val r x /\ w = zero.
End Spec.

(** The values at the points as an array with a row for each component. *)
Definition by_component {T} (value_size npoints : nat) (g : nat -> nat -> T) : list T :=
  concat (map (fun comp => map (fun i => g i comp) (seq 0 npoints)) (seq 0 value_size)).

(** Coordinate [j] of the point of a cell with the given nodes where the coordinate basis functions have the values
    [phi]; node [d] has the three coordinates [x_g[3 d]], ... *)
Definition node_sum (T : Type) (zero : T) (add mul : T -> T -> T) (phi : list T) (nodes : list nat) (x_g : list T) (j : nat) : T :=
  dot T zero add mul phi (map (fun d => nth (3 * d + j) x_g zero) nodes).
