(** What bounding-box trees must answer. *)
From Verif Require Import Base Bbox.

(** Arithmetic in which the order is total and the operations are monotone.  Exact
    arithmetic and rounded arithmetic without overflow both satisfy this. *)
Record arith_ok {T} (A : arith T) : Prop := {
  ao_trans : forall x y z, a_leb A x y = true -> a_leb A y z = true -> a_leb A x z = true;
  ao_total : forall x y, a_leb A x y = true \/ a_leb A y x = true;
  ao_add : forall x x' y y', a_leb A x x' = true -> a_leb A y y' = true -> a_leb A (a_add A x y) (a_add A x' y') = true;
  ao_sub : forall x x' y y', a_leb A x x' = true -> a_leb A y' y = true -> a_leb A (a_sub A x y) (a_sub A x' y') = true;
  ao_rtol : forall x y, a_leb A x y = true -> a_leb A (a_mul A (a_rtol A) x) (a_mul A (a_rtol A) y) = true;
  ao_sq : forall x, a_leb A (a_zero A) (a_mul A x x) = true;
  ao_sq_neg : forall x y, a_leb A x y = true -> a_leb A y (a_zero A) = true -> a_leb A (a_mul A y y) (a_mul A x x) = true;
  ao_sq_pos : forall x y, a_leb A x y = true -> a_leb A (a_zero A) x = true -> a_leb A (a_mul A x x) (a_mul A y y) = true }.

Section Spec.
Context {T : Type}.
Variable A : arith T.
Notation le x y := (a_leb A x y = true).
(** The tolerance of a box along an axis. *)
Definition tol (b : box T) (i : nat) : T := a_mul A (a_rtol A) (a_sub A (comp (bhi b) i) (comp (blo b) i)).
(** A point lies in a box, up to the tolerance. *)
Definition in_box (b : box T) (x : vec3 T) : Prop :=
  forall i, i < 3 -> le (a_sub A (comp (blo b) i) (tol b i)) (comp x i) /\ le (comp x i) (a_add A (comp (bhi b) i) (tol b i)).
(** Two boxes overlap, up to the tolerance of the second. *)
Definition overlap (a b : box T) : Prop :=
  forall i, i < 3 -> le (a_sub A (comp (blo b) i) (tol b i)) (comp (bhi a) i) /\ le (comp (blo a) i) (a_add A (comp (bhi b) i) (tol b i)).
(** Every point of box [a] is in box [b]. *)
Definition subbox (a b : box T) : Prop := forall i, i < 3 -> le (comp (blo b) i) (comp (blo a) i) /\ le (comp (bhi a) i) (comp (bhi b) i).

(** [es] is the list of the entities of [l] that satisfy [Q], one for each leaf. *)
Definition selects {X E} (Q : X -> Prop) (ent : X -> E) (l : list X) (es : list E) : Prop :=
  exists l', Permutation es (map ent l') /\ (exists rest, Permutation l (l' ++ rest) /\ Forall (fun x => ~ Q x) rest) /\ Forall Q l'.
End Spec.

(** [below nodes i lf]: leaf [lf] is in the subtree of node [i]; [reach nodes i j]: node [j]
    is in the subtree of node [i]. *)
Inductive below {T} (nodes : list (node_of T)) : nat -> leaf_of T -> Prop :=
| below_leaf i e b : nth_error nodes i = Some ((e, e), b) -> below nodes i (b, e)
| below_left i c0 c1 b lf : nth_error nodes i = Some ((c0, c1), b) -> c0 <> c1 -> below nodes c0 lf -> below nodes i lf
| below_right i c0 c1 b lf : nth_error nodes i = Some ((c0, c1), b) -> c0 <> c1 -> below nodes c1 lf -> below nodes i lf.
Inductive reach {T} (nodes : list (node_of T)) : nat -> nat -> Prop :=
| reach_here i : reach nodes i i
| reach_left i c0 c1 b j : nth_error nodes i = Some ((c0, c1), b) -> c0 <> c1 -> reach nodes c0 j -> reach nodes i j
| reach_right i c0 c1 b j : nth_error nodes i = Some ((c0, c1), b) -> c0 <> c1 -> reach nodes c1 j -> reach nodes i j.
