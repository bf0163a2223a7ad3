(** Linear algebra of small matrices. *)
From Coq Require Import Reals.
From Verif Require Import Base.
Open Scope nat_scope.

(** f 0 + ... + f (n - 1) *)
Fixpoint total (n : nat) (f : nat -> R) : R := match n with 0 => 0%R | S m => (total m f + f m)%R end.
Definition product (n : nat) (A B : nat -> nat -> R) (i j : nat) : R := total n (fun k => (A i k * B k j)%R).
Definition transposed (A : nat -> nat -> R) (i j : nat) : R := A j i.
Definition identity (i j : nat) : R := if i =? j then 1%R else 0%R.

(** The first [n] columns, with [m] rows, are linearly independent. *)
Definition independent (m n : nat) (A : nat -> nat -> R) : Prop :=
  forall c : nat -> R, (forall i, i < m -> total n (fun j => (A i j * c j)%R) = 0%R) -> forall j, j < n -> c j = 0%R.

(** Scalar products of the columns *)
Definition gram (m : nat) (A : nat -> nat -> R) : nat -> nat -> R := product m (transposed A) A.
(** Cells of dimension [tdim] in [gdim] dimensions *)
Definition dims (gdim tdim : nat) : Prop := 1 <= tdim <= gdim /\ gdim <= 3.

(** Determinants by expansion along the first row *)
Definition minor (A : nat -> nat -> R) (j i k : nat) : R := A (S i) (if k <? j then k else S k).
Fixpoint determinant (n : nat) (A : nat -> nat -> R) : R :=
  match n with
  | 0 => 1%R
  | S m => total n (fun j => ((if Nat.even j then 1 else -1) * A 0%nat j * determinant m (minor A j))%R)
  end.

Definition distance2 (n : nat) (x y : nat -> R) : R := total n (fun i => ((x i - y i) * (x i - y i))%R).
(** The edges from the first vertex of a cell *)
Definition edges (geometry : nat -> nat -> R) (i j : nat) : R := (geometry (S j) i - geometry 0%nat i)%R.
(** The point of a simplex with reference coordinates [X] *)
Definition simplex_point (tdim : nat) (geometry : nat -> nat -> R) (X : nat -> R) (i : nat) : R :=
  (geometry 0%nat i + total tdim (fun j => (edges geometry i j * X j)%R))%R.
(** The point with reference coordinates [X] in a cell with basis functions [phi] *)
Definition cell_point (nodes : nat) (geometry : nat -> nat -> R) (phi : (nat -> R) -> nat -> R) (X : nat -> R) (i : nat) : R :=
  total nodes (fun k => (phi X k * geometry k i)%R).

(** The derivatives of this point, from those of the basis functions ([dphi X j k]: basis
    function [k] along axis [j]) *)
Definition cell_jacobian (nodes : nat) (geometry : nat -> nat -> R) (dphi : (nat -> R) -> nat -> nat -> R) (X : nat -> R) (i j : nat) : R :=
  total nodes (fun k => (geometry k i * dphi X j k)%R).

(** Parts (start, size) of an array of [n] entries that do not overlap *)
Definition parts_ok (n : nat) (l : list (nat * nat)) : Prop :=
  (forall p, In p l -> fst p + snd p <= n) /\
  ForallOrdPairs (fun p q => fst p + snd p <= fst q) l.
