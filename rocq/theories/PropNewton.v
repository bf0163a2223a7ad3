(** Property C82. *)
From Coq Require Import QArith Qabs.
From Verif Require Import Base Newton NewtonSpec NewtonProofs.
Open Scope nat_scope.

(** C82, any callbacks: [solve] computes the iterates of Newton's method and stops at the first
    one that passes the test, or at [max_it]; the vector is left at that iterate, the residual
    vector is that of the iterate, and the counters are those of the iterations made. *)
Theorem C82_solve :
  forall (K V M : Type) (zero one minus_one : K) (norm : V -> K) (w : newton K V M) (F : V -> V) (J : V -> M) (x0 b0 : V),
  nw_F K V M w = Some F -> nw_J K V M w = Some J -> nw_criterion K V M w <> OtherCriterion ->
  exists y dx its res test,
  newton_sequence K V M zero one minus_one norm F J
    (fun x => match nw_P K V M w with Some f => f x | None => J x end)
    (fun x => match nw_system K V M w with Some f => f x | None => x end)
    (nw_update K V M w) (nw_ksp K V M w) (nw_converged K V M w)
    (match nw_criterion K V M w with Incremental => true | _ => false end) x0 y dx its res test /\
  exists k, stops_at test (nw_max_it K V M w) k /\
  let s := mkNS K V (mkView K k (total its k) (res k) (reference K V zero norm dx k)) (y k) (F (y k)) (test k) in
  newton_solve K V M zero one minus_one norm w x0 b0 = Some (
    if test k || negb (nw_error K V M w) then Returned K V s
    else Thrown K V (if (Z.of_nat k =? nw_max_it K V M w)%Z then MaxIterations else NotConverged) s).
Proof. exact newton_ok. Qed.
Print Assumptions C82_solve.

(** Without the functions or with an unknown criterion [solve] throws, and makes no iteration. *)
Theorem C82_missing :
  forall (K V M : Type) (zero one minus_one : K) (norm : V -> K) (w : newton K V M) (x0 b0 : V),
  nw_F K V M w = None \/ nw_J K V M w = None \/ nw_criterion K V M w = OtherCriterion ->
  exists e s, newton_solve K V M zero one minus_one norm w x0 b0 = Some (Thrown K V e s) /\
  nv_it K (ns_view K V s) = 0 /\ nv_kit K (ns_view K V s) = 0 /\
  (e = NoResidual <-> nw_F K V M w = None) /\ (e = NoJacobian <-> nw_F K V M w <> None /\ nw_J K V M w = None) /\
  (nw_F K V M w = None \/ nw_J K V M w = None -> ns_x K V s = x0 /\ ns_b K V s = b0).
Proof.
  intros K V M zero one minus_one norm w x0 b0 H. unfold newton_solve.
  destruct (nw_F K V M w) as [F|]; [destruct (nw_J K V M w) as [J|]|].
  - destruct (nw_criterion K V M w); try (destruct H as [H|[H|H]]; discriminate). do 2 eexists. split; [reflexivity|]. cbn. intuition congruence.
  - do 2 eexists. split; [reflexivity|]. cbn. intuition congruence.
  - do 2 eexists. split; [reflexivity|]. cbn. intuition congruence.
Qed.
Print Assumptions C82_missing.
Example C82_missing_case : exists s, newton_solve nat nat nat 0 1 2 (fun x => x) (mkNewton nat nat nat (Some S) None None None (fun _ _ => (0, true)) (fun _ d x => x - d) (fun _ _ _ => (1, 1)) 5 Residual true) 7 8
  = Some (Thrown nat nat NoJacobian s).
Proof. eexists. reflexivity. Qed.

(** With the default callbacks: [x - relaxation dx] is the next iterate, and the norm of the
    residual, or of the increment from the second one on, is compared with [atol], and its
    quotient by the norm of the first increment with [rtol]. *)
Theorem C82_default :
  forall (K V M : Type) (zero one minus_one : K) (ltb : K -> K -> bool) (div : K -> K -> K) (norm : V -> K)
    (rtol atol : K) (axpy : K -> V -> V -> V) (minus_relaxation : K)
    (F : V -> V) (J : V -> M) (ksp : M -> M -> V -> V * nat) (max_it : Z) (incr err : bool) (x0 b0 : V),
  let w := mkNewton K V M (Some F) (Some J) None None (default_converged K V ltb div norm rtol atol) (default_update K V axpy minus_relaxation)
             ksp max_it (if incr then Incremental else Residual) err in
  exists y dx its, y 0 = x0 /\
  (forall j, (dx j, its j) = ksp (J (y j)) (J (y j)) (F (y j)) /\ y (S j) = axpy minus_relaxation (dx j) (y j)) /\
  exists k, stops_at (fun j =>
      if incr then match j with S (S i) => ltb (div (norm (dx (S i))) (norm (dx 0))) rtol || ltb (norm (dx (S i))) atol | _ => false end
      else ltb (div (norm (F (y j))) (match j with 0 => zero | _ => norm (dx 0) end)) rtol || ltb (norm (F (y j))) atol) max_it k /\
  exists s, ns_x K V s = y k /\ ns_b K V s = F (y k) /\ nv_it K (ns_view K V s) = k /\ nv_kit K (ns_view K V s) = total its k /\
  (incr = false -> nv_res K (ns_view K V s) = norm (F (y k))) /\
  (newton_solve K V M zero one minus_one norm w x0 b0 = Some (
    if ns_conv K V s || negb err then Returned K V s
    else Thrown K V (if (Z.of_nat k =? max_it)%Z then MaxIterations else NotConverged) s)) /\
  ns_conv K V s = if incr then match k with S (S i) => ltb (div (norm (dx (S i))) (norm (dx 0))) rtol || ltb (norm (dx (S i))) atol | _ => false end
      else ltb (div (norm (F (y k))) (match k with 0 => zero | _ => norm (dx 0) end)) rtol || ltb (norm (F (y k))) atol.
Proof.
  intros K V M zero one minus_one ltb div norm rtol atol axpy mr F J ksp max_it incr err x0 b0 w.
  destruct (newton_ok K V M zero one minus_one norm w F J x0 b0 eq_refl eq_refl) as (y & dx & its & res & test & Hs & k & Hk & E); [cbn; destruct incr; discriminate|].
  replace (NewtonProofs.incr K V M w) with incr in Hs by (unfold NewtonProofs.incr; cbn; now destruct incr).
  destruct Hs as [H0 Hd Hn Ht0 Ht]. cbn in H0, Hd, Hn.
  set (t := fun j => if incr then match j with S (S i) => ltb (div (norm (dx (S i))) (norm (dx 0))) rtol || ltb (norm (dx (S i))) atol | _ => false end
      else ltb (div (norm (F (y j))) (match j with 0 => zero | _ => norm (dx 0) end)) rtol || ltb (norm (F (y j))) atol).
  assert (Et : forall j, test j = t j /\ (incr = false -> res j = norm (F (y j)))).
  { intro j. unfold t. destruct incr.
    - split; [|discriminate]. destruct Ht0 as (_ & T0 & _ & T1). destruct j as [|[|i]]; [exact T0|exact T1|].
      specialize (Ht (S i) (or_intror (Nat.lt_0_succ i))). unfold w in Ht. cbn [nw_converged default_converged] in Ht. injection Ht as _ Ht. exact Ht.
    - destruct j as [|i].
      + unfold w in Ht0. cbn [nw_converged default_converged] in Ht0. injection Ht0 as R0 T0. split; [exact T0|intros _; exact R0].
      + specialize (Ht i (or_introl eq_refl)). unfold w in Ht. cbn [nw_converged default_converged] in Ht. injection Ht as R0 T0. split; [exact T0|intros _; exact R0]. }
  exists y, dx, its. split; [exact H0|]. split; [intro j; split; [exact (Hd j)|exact (Hn j)]|].
  exists k. split; [|exists (mkNS K V (mkView K k (total its k) (res k) (reference K V zero norm dx k)) (y k) (F (y k)) (test k))].
  - destruct Hk as (K1 & K2 & K3). split; [exact K1|]. split; [intros j Hj; fold (t j); rewrite <- (proj1 (Et j)); now apply K2|]. fold (t k). now rewrite <- (proj1 (Et k)).
  - cbn [ns_x ns_b ns_view ns_conv nv_it nv_kit nv_res]. do 4 (split; [reflexivity|]). split; [exact (proj2 (Et k))|]. split; [exact E|]. fold (t k). apply Et.
Qed.
Print Assumptions C82_default.

(** If one full step solves the equations up to [atol], as for linear problems, at most one
    step is made. *)
Theorem C82_linear :
  forall (K V M : Type) (zero one minus_one : K) (ltb : K -> K -> bool) (div : K -> K -> K) (norm : V -> K)
    (rtol atol : K) (axpy : K -> V -> V -> V) (minus_relaxation : K)
    (F : V -> V) (J : V -> M) (ksp : M -> M -> V -> V * nat) (max_it : Z) (err : bool) (x0 b0 : V),
  let w := mkNewton K V M (Some F) (Some J) None None (default_converged K V ltb div norm rtol atol) (default_update K V axpy minus_relaxation)
             ksp max_it Residual err in
  (0 < max_it)%Z -> ltb (norm (F (axpy minus_relaxation (fst (ksp (J x0) (J x0) (F x0))) x0))) atol = true ->
  exists s, newton_solve K V M zero one minus_one norm w x0 b0 = Some (Returned K V s) /\ ns_conv K V s = true /\ nv_it K (ns_view K V s) <= 1.
Proof.
  intros K V M zero one minus_one ltb div norm rtol atol axpy mr F J ksp max_it err x0 b0 w Hm Hl.
  destruct (C82_default K V M zero one minus_one ltb div norm rtol atol axpy mr F J ksp max_it false err x0 b0) as (y & dx & its & H0 & Hd & k & (K1 & K2 & K3) & s & S1 & S2 & S3 & S4 & S5 & E & Ec).
  assert (T1 : ltb (norm (F (y 1))) atol = true).
  { destruct (Hd 0) as [D1 D2]. rewrite D2. rewrite H0 in D1. rewrite <- D1 in Hl. cbn [fst] in Hl. rewrite H0. exact Hl. }
  assert (Hk : k <= 1).
  { destruct (le_lt_dec k 1) as [L|L]; [exact L|]. specialize (K2 1 L). cbn beta in K2. rewrite T1, orb_true_r in K2. discriminate. }
  assert (Hc : ns_conv K V s = true).
  { rewrite Ec. destruct K3 as [K3|K3]; [exact K3|]. assert (H1 : k = 1) by lia. rewrite H1, T1. apply orb_true_r. }
  exists s. rewrite Hc in E. cbn [orb] in E. split; [exact E|]. split; [exact Hc|]. rewrite S3. exact Hk.
Qed.
Print Assumptions C82_linear.

(** Example: [c x = 0], with relaxation 1/2, in rational numbers. A quotient by zero is large. *)
Definition qdiv (a b : Q) : Q := if Qeq_bool b 0 then 1000000000 # 1 else Qred (a / b).
Definition qltb (a b : Q) : bool := negb (Qle_bool b a).
Definition q_newton (c : Q) (max_it : Z) (cr : criterion) : newton Q Q Q :=
  mkNewton Q Q Q (Some (fun x => Qred (c * x)%Q)) (Some (fun _ => c)) None None
    (default_converged Q Q qltb qdiv Qabs (1 # 10) (1 # 1000000)) (default_update Q Q (fun a d x => Qred (x + a * d)%Q) (-1 # 2))
    (fun J P b => (Qred (b / J)%Q, 1)) max_it cr true.
Definition q_solve (c : Q) (max_it : Z) (cr : criterion) : option (nresult Q Q) :=
  newton_solve Q Q Q 0%Q 1%Q (-1 # 1) Qabs (q_newton c max_it cr) 1%Q 0%Q.
Example C82_solve_case :
  q_solve 1%Q 50 Residual = Some (Returned Q Q (mkNS Q Q (mkView Q 4 4 (1 # 16) 1%Q) (1 # 16) (1 # 16) true)) /\
  q_solve 1%Q 50 Incremental = Some (Returned Q Q (mkNS Q Q (mkView Q 5 5 (1 # 16) 1%Q) (1 # 32) (1 # 32) true)) /\
  q_solve 1%Q 1 Incremental = Some (Thrown Q Q MaxIterations (mkNS Q Q (mkView Q 1 1 1%Q 1%Q) (1 # 2) (1 # 2) false)) /\
  q_solve 1%Q (-1) Residual = Some (Thrown Q Q NotConverged (mkNS Q Q (mkView Q 0 0 1%Q 0%Q) 1%Q 1%Q false)).
Proof. vm_compute. auto. Qed.
(** A linear problem, full step *)
Example C82_linear_hyps : qltb (Qabs (Qred (7 * Qred (1 + (-1 # 1) * fst (Qred (Qred (7 * 1) / 7), 1%nat)))%Q)) (1 # 1000000) = true.
Proof. vm_compute. reflexivity. Qed.

(** The relative test does not compare with the initial residual: a residual that is half the
    initial one passes the test for [rtol = 1/10], and one that is 1/32 of it does not.  The
    scale of the equations decides. *)
Theorem C82_relative_refuted :
  (exists s, q_solve (1 # 100) 50 Residual = Some (Returned Q Q s) /\ ns_conv Q Q s = true /\
     Qlt (1 # 1000000) (nv_res Q (ns_view Q Q s)) /\ Qeq (nv_res Q (ns_view Q Q s)) ((1 # 2) * Qabs ((1 # 100) * 1))%Q) /\
  (exists s, q_solve 100%Q 5 Residual = Some (Thrown Q Q MaxIterations s) /\ ns_conv Q Q s = false /\
     Qeq (nv_res Q (ns_view Q Q s)) ((1 # 32) * Qabs (100 * 1))%Q).
Proof.
  split; (eexists; split; [vm_compute; reflexivity|]; split; [reflexivity|]).
  - split; reflexivity.
  - reflexivity.
Qed.
Print Assumptions C82_relative_refuted.
