(** What [mark_maximum] should return, for property C81. *)
From Verif Require Import Base.
From Coq Require Import Reals.
Open Scope nat_scope.

(** [m] is the largest indicator of all processes *)
Definition largest (P : nat) (marker : nat -> list R) (m : R) : Prop :=
  (exists q, q < P /\ In m (marker q)) /\ forall q e, q < P -> In e (marker q) -> (e <= m)%R.
