(** Newton's method as sequences, for property C82. *)
From Verif Require Import Base Newton.
Open Scope nat_scope.

(** [its 0 + ... + its (n - 1)] *)
Fixpoint total (its : nat -> nat) (n : nat) : nat := match n with 0 => 0 | S n => total its n + its n end.

Section Sequences.
Variables (K V M : Type) (zero one minus_one : K) (norm : V -> K).
(** Residual, Jacobian, preconditioner, what is called for every new iterate, update, linear
    solver and convergence test *)
Variables (F : V -> V) (J Pm : V -> M) (sys : V -> V) (update : view K -> V -> V -> V) (ksp : M -> M -> V -> V * nat)
  (converged : view K -> V -> K * bool).

(** The reference for relative tests after [k] iterations *)
Definition reference (dx : nat -> V) (k : nat) : K := match k with 0 => zero | S _ => norm (dx 0) end.

(** Iterates [y], increments [dx], numbers of linear iterations [its], values [res] and
    outcomes [test] of the convergence test.  With [incr], the increments are tested, from the
    second one on, otherwise the residuals. *)
Record newton_sequence (incr : bool) (x0 : V) (y dx : nat -> V) (its : nat -> nat) (res : nat -> K) (test : nat -> bool) : Prop := mkSeq {
  sq_start : y 0 = sys x0;
  sq_solve : forall k, (dx k, its k) = ksp (J (y k)) (Pm (y k)) (F (y k));
  sq_next : forall k, y (S k) = sys (update (mkView K k (total its (S k)) (res k) (reference dx k)) (dx k) (y k));
  sq_test0 : if incr then res 0 = minus_one /\ test 0 = false /\ res 1 = one /\ test 1 = false
             else (res 0, test 0) = converged (mkView K 0 0 minus_one zero) (F (y 0));
  sq_test : forall k, incr = false \/ 0 < k ->
    (res (S k), test (S k)) = converged (mkView K (S k) (total its (S k)) (res k) (reference dx (S k))) (if incr then dx k else F (y (S k)))
}.
End Sequences.

(** [k] is the first index of at most [max_it] where [test] holds, or else the largest index
    that is allowed. *)
Definition stops_at (test : nat -> bool) (max_it : Z) (k : nat) : Prop :=
  (Z.of_nat k <= Z.max 0 max_it)%Z /\ (forall j, j < k -> test j = false) /\ (test k = true \/ (max_it <= Z.of_nat k)%Z).
