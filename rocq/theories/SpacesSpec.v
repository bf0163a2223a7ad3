(** Function spaces: what property C89 refers to. *)
From Verif Require Import Base Spaces.
Open Scope nat_scope.

(** Space number [i] of a history is part of the space made as number [r] by [New], reached by the components [p]. *)
Inductive part_of (l : list op) : nat -> nat -> list nat -> Prop :=
| part_new r : nth_error l r = Some New -> part_of l r r []
| part_sub i k c r p : nth_error l i = Some (Sub k c) -> k < i -> part_of l k r p -> part_of l i r (p ++ c).

(** Block (i, j) has a form with test space [a] and trial space [b]. *)
Definition block (V : list (list (option nat * option nat))) (i j a b : nat) : Prop :=
  exists row, nth_error V i = Some row /\ nth_error row j = Some (Some a, Some b).
