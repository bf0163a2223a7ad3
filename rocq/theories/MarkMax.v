(** Model of [mark_maximum] (cpp/dolfinx/refinement/mark.h).

    Indicators are real numbers: rounding of [theta * max], overflow and NaN are left out.
    [lowest] is the smallest finite number, the maximum on a process without indicators.
    An exception is [None]. *)
From Verif Require Import Base MatrixCSR.
From Coq Require Import Reals.
Open Scope nat_scope.

Definition Rltb (a b : R) : bool := if Rlt_dec a b then true else false.

Section MarkMaximum.
Variables (lowest : R) (P : nat) (marker : nat -> list R) (theta : R).

(** mark.h:39-40: [std::ranges::max] keeps the first of equal elements *)
Definition marker_max (l : list R) : R :=
  match l with [] => lowest | x :: l => fold_left (fun m y => if Rltb m y then y else m) l x end.
(** mark.h:41: [MPI_Allreduce] with [MPI_MAX] *)
Definition marker_allmax : R := fold_left Rmax (map (fun q => marker_max (marker q)) (seq 1 (P - 1))) (marker_max (marker 0)).
(** mark.h:43 *)
Definition is_marked (max e : R) : bool := Rltb (theta * max) e.
(** mark.h:33-58 *)
Definition mark_maximum (r : nat) : option (list nat) :=
  if negb (Rltb 0 theta) || negb (Rltb theta 1) then None else
  Some (fold_left (fun indices '(i, e) => if is_marked marker_allmax e then indices ++ [i] else indices) (enum (marker r)) []).
End MarkMaximum.
