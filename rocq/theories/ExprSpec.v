(** Expressions: what property C88 refers to. *)
From Verif Require Import Base Expr.
Open Scope nat_scope.

Section Spec.
Variables (T U : Type) (zero : T) (d0 : U).
Variables (kernel : list T -> list T -> list T -> list U -> option (nat * nat) -> list T) (P0 : nat -> nat -> list T -> list T).

(** The coordinates, three for each, of the nodes of a cell *)
Definition cell_coordinates (x_dofmap : list (list nat)) (x : list U) (c : nat) : list U :=
  flat_map (fun d => [nth (3 * d) x d0; nth (3 * d + 1) x d0; nth (3 * d + 2) x d0]) (nth c x_dofmap []).
(** Row [n] of an array with rows of [w] numbers *)
Definition array_row (w : nat) (a : list T) (n : nat) : list T := map (fun j => nth (n * w + j) a zero) (seq 0 w).
(** What the kernel computes, from zero, for entity number [n] of a list *)
Definition entity_values (size0 nargs : nat) (x_dofmap : list (list nat)) (x : list U) (coeffs : list T) (cstride : nat) (constants : list T) (perms : list (list nat)) (n : nat) (e : entity) : list T :=
  P0 (entity_cell e) size0 (kernel (repeat zero (size0 * nargs)) (array_row cstride coeffs n) constants (cell_coordinates x_dofmap x (entity_cell e))
    (match e with Cell _ => None | Facet c f => Some (f, nth f (nth c perms []) 0) end)).
(** The arrays are large enough for the entities, and kernels and transformations keep the number of values. *)
Definition expression_fits (size0 nargs : nat) (x_dofmap : list (list nat)) (x : list U) (coeffs : list T) (cstride : nat) (perms : list (list nat)) (entities : list entity) : Prop :=
  length entities * cstride <= length coeffs /\
  (forall v w k xs l, length v = size0 * nargs -> length (kernel v w k xs l) = size0 * nargs) /\
  (forall c n v, length v = size0 * nargs -> length (P0 c n v) = size0 * nargs) /\
  forall e, In e entities -> (exists nodes, nth_error x_dofmap (entity_cell e) = Some nodes /\ forall d, In d nodes -> 3 * d + 3 <= length x) /\
    match e with Cell _ => True | Facet c f => perms = [] \/ exists row, nth_error perms c = Some row /\ f < length row end.
End Spec.
