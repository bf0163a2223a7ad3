(** Property C44: Dirichlet boundary conditions.  [opt_at zero x0 d] is entry [d] of the
    optional array [x0], or zero; [opt_long x0 x] says that it is as long as [x]. *)
From Coq Require Import Ring ZArithRing.
From Verif Require Import Base BaseProofs Algo DirichletBC BcProofs.
Open Scope nat_scope.

(** C44, for a function as boundary value: [set] writes [alpha * (g - x0)] to the dofs of
    the constrained blocks that lie inside the array, and nothing else. *)
Theorem C44_set_function :
  forall T (zero one : T) add mul sub opp, ring_theory zero one add mul sub opp eq ->
  forall eqb : T -> T -> bool, (forall x y, eqb x y = true <-> x = y) ->
  forall V values dofs x x0 alpha, 0 < sp_bs V -> opt_long x0 x ->
    (forall d c, In d dofs -> c < sp_bs V -> sp_bs V * d + c < length x -> sp_bs V * d + c < length values) ->
  exists b x', bc_fun values dofs V = Some b /\ bc_set zero mul sub eqb b x x0 alpha = Some x' /\ length x' = length x /\
    (forall d c, In d dofs -> c < sp_bs V -> sp_bs V * d + c < length x ->
       nth_error x' (sp_bs V * d + c) = Some (mul alpha (sub (nth (sp_bs V * d + c) values zero) (opt_at zero x0 (sp_bs V * d + c))))) /\
    (forall i, (forall d c, In d dofs -> c < sp_bs V -> i <> sp_bs V * d + c) -> nth_error x' i = nth_error x i).
Proof. exact @set_fun_ok. Qed.
Print Assumptions C44_set_function.

(** C44, for a constant: component [c] of every constrained block gets component [c] of the
    constant. *)
Theorem C44_set_constant :
  forall T (zero one : T) add mul sub opp, ring_theory zero one add mul sub opp eq ->
  forall eqb : T -> T -> bool, (forall x y, eqb x y = true <-> x = y) ->
  forall V rank value dofs b x x0 alpha, 0 < sp_bs V -> opt_long x0 x -> bc_const rank value dofs V = Some b ->
  exists x', bc_set zero mul sub eqb b x x0 alpha = Some x' /\ length x' = length x /\
    (forall d c, In d dofs -> c < sp_bs V -> sp_bs V * d + c < length x ->
       nth_error x' (sp_bs V * d + c) = Some (mul alpha (sub (nth c value zero) (opt_at zero x0 (sp_bs V * d + c))))) /\
    (forall i, (forall d c, In d dofs -> c < sp_bs V -> i <> sp_bs V * d + c) -> nth_error x' i = nth_error x i).
Proof. exact @set_const_ok. Qed.
Print Assumptions C44_set_constant.
(** C44: a constant of the wrong rank or size, or an element without point evaluation, is
    rejected. *)
Theorem C44_constant_rejects :
  forall T rank (value : list T) dofs V, 0 < sp_bs V ->
    (bc_const rank value dofs V = None <-> rank <> sp_rank V \/ length value <> sp_bs V \/ sp_point_eval V = false).
Proof.
  intros T rank value dofs V Hbs. unfold bc_const. rewrite (unroll_if_ok dofs _ Hbs). destruct (Nat.eqb_spec rank (sp_rank V)), (Nat.eqb_spec (length value) (sp_bs V)), (sp_point_eval V); cbn [negb obind]; split; intro H; try discriminate; try reflexivity; try tauto.
  destruct H as [H|[H|H]]; [contradiction|contradiction|discriminate].
Qed.
Print Assumptions C44_constant_rejects.

(** C44, for a pair of dof arrays: [set] writes to a dof the value at the last position where
    the dof occurs. *)
Theorem C44_set_pair :
  forall T (zero one : T) add mul sub opp, ring_theory zero one add mul sub opp eq ->
  forall eqb : T -> T -> bool, (forall x y, eqb x y = true <-> x = y) ->
  forall V values dofs0 dofs1 x x0 alpha, length dofs0 = length dofs1 -> opt_long x0 x -> Forall (fun j => j < length values) dofs1 ->
  exists x', bc_set zero mul sub eqb (bc_pair values dofs0 dofs1 V) x x0 alpha = Some x' /\ length x' = length x /\
    (forall k d j, nth_error dofs0 k = Some d -> nth_error dofs1 k = Some j -> (forall k', k < k' -> nth_error dofs0 k' <> Some d) -> d < length x ->
       nth_error x' d = Some (mul alpha (sub (nth j values zero) (opt_at zero x0 d)))) /\
    (forall i, ~ In i dofs0 -> nth_error x' i = nth_error x i).
Proof. exact @set_pair_ok. Qed.
Print Assumptions C44_set_pair.

(** C44: [alpha = 0] writes zero without reading the boundary value. *)
Theorem C44_set_zero :
  forall T (zero : T) (mul sub : T -> T -> T) (eqb : T -> T -> bool), (forall x y, eqb x y = true <-> x = y) ->
  forall b x x0, exists x', bc_set zero mul sub eqb b x x0 zero = Some x' /\ length x' = length x /\
    forall d, d < length x -> nth_error x' d = if mem d (bc_dofs0 b) then Some zero else nth_error x d.
Proof.
  intros T zero mul sub eqb H b x x0. unfold bc_set. rewrite (proj2 (H zero zero) eq_refl). destruct (apply_ok b x (fun _ => Some zero)) as (x' & E & L & I1 & I2); [eauto|]. exists x'. do 2 (split; [assumption|]). intros d Hd.
  destruct (mem d (bc_dofs0 b)) eqn:Em.
  - apply AlgoProofs.mem_iff in Em. destruct (last_exists _ _ Em) as (k & Hk). exact (I2 d k Hd Hk).
  - apply I1. intro Hin. apply AlgoProofs.mem_iff in Hin. congruence.
Qed.
Print Assumptions C44_set_zero.

(** C44: [mark_dofs] sets exactly the markers of the constrained dofs. *)
Theorem C44_mark_dofs :
  forall T (b : bc T) markers, Forall (fun d => d < length markers) (bc_dofs0 b) ->
  exists m, mark_dofs b markers = Some m /\ length m = length markers /\ forall d, d < length markers -> nth_error m d = if mem d (bc_dofs0 b) then Some true else nth_error markers d.
Proof. exact @mark_ok. Qed.
Print Assumptions C44_mark_dofs.

(** C44: [dof_indices] returns the dofs of the blocks in increasing order, and the number of
    those that are owned, which come first. *)
Theorem C44_dof_indices :
  forall T V (values : list T) dofs b, 0 < sp_bs V -> StronglySorted lt dofs -> (bc_fun values dofs V = Some b \/ exists rank, bc_const rank values dofs V = Some b) ->
  let '(ds, n) := dof_indices b in
    StronglySorted lt ds /\ (forall i, In i ds <-> exists d c, In d dofs /\ c < sp_bs V /\ i = sp_bs V * d + c) /\ n <= length ds /\
    forall k i, nth_error ds k = Some i -> (k < n <-> i < sp_index_bs V * sp_owned V).
Proof. exact @indices_ok. Qed.
Print Assumptions C44_dof_indices.

(** C44: the same for a pair of dof arrays, the first of which is sorted. *)
Theorem C44_pair_indices :
  forall T V (values : list T) dofs0 dofs1, StronglySorted le dofs0 ->
  let '(ds, n) := dof_indices (bc_pair values dofs0 dofs1 V) in
    ds = dofs0 /\ n <= length ds /\ forall k i, nth_error ds k = Some i -> (k < n <-> i < sp_index_bs V * sp_owned V).
Proof. intros T V values dofs0 dofs1 H. cbn [dof_indices bc_pair bc_dofs0 bc_num_owned]. split; [reflexivity|].
  unfold num_owned, lower_bound, lower_bound_by. set (m := sp_index_bs V * sp_owned V). clearbody m. split; [apply AlgoProofs.prefix_len_le|].
  induction H as [|a l _ IH Hf]; intros [|k] i E; cbn in E; try discriminate; cbn [prefix_len]; destruct (Nat.ltb_spec a m) as [Ha|Ha].
  - injection E as ->. lia.
  - injection E as ->. lia.
  - specialize (IH k i E). lia.
  - apply nth_error_In in E. rewrite Forall_forall in Hf. specialize (Hf i E). lia.
Qed.
Print Assumptions C44_pair_indices.

Example ex_bc : exists b, bc_const 1 [5; 7]%Z [1; 3] (mkSpace 2 2 2 1 true) = Some b /\ dof_indices b = ([2; 3; 6; 7], 2) /\
  bc_set 0%Z Z.mul Z.sub Z.eqb b [9; 9; 9; 9; 9; 9; 9]%Z (Some [1; 1; 1; 1; 1; 1; 1]%Z) 2%Z = Some [9; 9; 8; 12; 9; 9; 8]%Z /\
  mark_dofs b (repeat false 8) = Some [false; false; true; true; false; false; true; true].
Proof. eexists. repeat split. Qed.
Example ex_bc_ring : ring_theory 0%Z 1%Z Z.add Z.mul Z.sub Z.opp eq /\ (forall x y, Z.eqb x y = true <-> x = y).
Proof. split; [exact Zth|exact Z.eqb_eq]. Qed.
