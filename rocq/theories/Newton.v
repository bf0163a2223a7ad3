(** Model of the Newton solver (cpp/dolfinx/nls/NewtonSolver.cpp).

    Vectors and matrices are values of abstract types; a distributed vector is one value, as
    all operations on it are collective.  The numbers, their comparison and their division are
    parameters as well, so the theorems also hold for floating point numbers.
    Simplifications: the functions that compute the residual, the Jacobian and the
    preconditioner overwrite their result, and the linear solver starts from zero, so each of
    them is a function of its arguments. A preconditioner that is not given is the Jacobian.
    Log messages are left out; the integers are unbounded. *)
From Verif Require Import Base.
Open Scope nat_scope.

(** NewtonSolver.h: [convergence_criterion], a string *)
Inductive criterion := Residual | Incremental | OtherCriterion.
(** Exceptions of [solve] *)
Inductive newton_error := NoResidual | NoJacobian | UnknownCriterion | MaxIterations | NotConverged.

Section Newton.
(** Numbers, vectors, matrices *)
Variables (K V M : Type) (zero one minus_one : K) (ltb : K -> K -> bool) (div : K -> K -> K) (norm : V -> K).

(** What the callbacks can see: [iteration()], [krylov_iterations()], [residual()], [residual0()]
    (NewtonSolver.h:113-131) *)
Record view := mkView { nv_it : nat; nv_kit : nat; nv_res : K; nv_res0 : K }.

(** Settings (NewtonSolver.h:133-156) and callbacks (setF, setJ, setP, set_form,
    set_convergence_check, set_update, NewtonSolver.cpp:97-148) *)
Record newton := mkNewton {
  nw_F : option (V -> V);
  nw_J : option (V -> M);
  nw_P : option (V -> M);
  nw_system : option (V -> V);
  nw_converged : view -> V -> K * bool;
  nw_update : view -> V -> V -> V;
  nw_ksp : M -> M -> V -> V * nat;
  nw_max_it : Z;
  nw_criterion : criterion;
  nw_error : bool
}.

(** NewtonSolver.cpp:28-51, the default test; [rtol] and [atol] are settings *)
Definition default_converged (rtol atol : K) (s : view) (r : V) : K * bool :=
  let residual := norm r in
  let relative_residual := div residual (nv_res0 s) in
  (residual, ltb relative_residual rtol || ltb residual atol).
(** NewtonSolver.cpp:62-66, the default update; [axpy a dx x] is [x + a dx] *)
Definition default_update (axpy : K -> V -> V -> V) (minus_relaxation : K) (s : view) (dx x : V) : V := axpy minus_relaxation dx x.

(** The data of a solve in progress: what the callbacks see, [x], [_b] and [newton_converged] *)
Record nstate := mkNS { ns_view : view; ns_x : V; ns_b : V; ns_conv : bool }.
Inductive nresult := Returned (s : nstate) | Thrown (e : newton_error) (s : nstate).

Variable w : newton.
(** NewtonSolver.cpp:172-175, 216-220 *)
Definition call_system (x : V) : V := match nw_system w with Some f => f x | None => x end.

(** NewtonSolver.cpp:203-247: one pass through the loop *)
Definition newton_step (F : V -> V) (J : V -> M) (s : nstate) : option nstate :=
  let v := ns_view s in
  let matJ := J (ns_x s) in
  let matP := match nw_P w with Some f => f (ns_x s) | None => matJ end in
  let '(dx, k) := nw_ksp w matJ matP (ns_b s) in
  let v := mkView (nv_it v) (nv_kit v + k) (nv_res v) (nv_res0 v) in
  let x := nw_update w v dx (ns_x s) in
  let v := mkView (S (nv_it v)) (nv_kit v) (nv_res v) (nv_res0 v) in
  let x := call_system x in
  let b := F x in
  let v := if nv_it v =? 1 then mkView (nv_it v) (nv_kit v) (nv_res v) (norm dx) else v in
  match nw_criterion w with
  | Residual => let '(r, c) := nw_converged w v b in Some (mkNS (mkView (nv_it v) (nv_kit v) r (nv_res0 v)) x b c)
  | Incremental =>
      if nv_it v =? 1 then Some (mkNS (mkView (nv_it v) (nv_kit v) one (nv_res0 v)) x b false)
      else let '(r, c) := nw_converged w v dx in Some (mkNS (mkView (nv_it v) (nv_kit v) r (nv_res0 v)) x b c)
  | OtherCriterion => None
  end.

(** NewtonSolver.cpp:200-248; [None] if the fuel runs out or the criterion is unknown *)
Fixpoint newton_loop (fuel : nat) (F : V -> V) (J : V -> M) (s : nstate) : option nstate :=
  if negb (ns_conv s) && (Z.of_nat (nv_it (ns_view s)) <? nw_max_it w)%Z then
    match fuel with 0 => None | S fuel => s <- newton_step F J s ;; newton_loop fuel F J s end
  else Some s.

(** NewtonSolver.cpp:150-276. [b0]: the contents of the residual vector before the call *)
Definition newton_solve (x b0 : V) : option nresult :=
  let v := mkView 0 0 minus_one zero in
  match nw_F w, nw_J w with
  | None, _ => Some (Thrown NoResidual (mkNS v x b0 false))
  | _, None => Some (Thrown NoJacobian (mkNS v x b0 false))
  | Some F, Some J =>
    let x := call_system x in
    let b := F x in
    match nw_criterion w with
    | OtherCriterion => Some (Thrown UnknownCriterion (mkNS v x b false))
    | cr =>
      let '(v, c) := match cr with
                     | Residual => let '(r, c) := nw_converged w v b in (mkView 0 0 r zero, c)
                     | _ => (v, false)
                     end in
      s <- newton_loop (Z.to_nat (nw_max_it w)) F J (mkNS v x b c) ;;
      Some (if ns_conv s then Returned s
            else if nw_error w then
              if (Z.of_nat (nv_it (ns_view s)) =? nw_max_it w)%Z then Thrown MaxIterations s else Thrown NotConverged s
            else Returned s)
    end
  end.
End Newton.
