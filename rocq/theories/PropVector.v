(** Properties C17 to C21. *)
From Coq Require Import Ring Reals QArith ZArithRing.
From Verif Require Import Base Algo Nbx World IndexMap IndexMapSpec Scatterer VectorOps VectorSpec
  VectorOpsProofs OrthoProofs VectorStmts PropIndexMap.
Open Scope nat_scope.

(** C17.  [dflt] only says the scalar type has an element. *)
Theorem C17_scatter_fwd :
  forall P maps bs T (dflt : T) x, maps_ok P maps -> full_size P maps bs x ->
  exists y, forall r, r < P ->
    vec_scatter_fwd P maps bs T x r = Some (y r) /\
    length (y r) = length (x r) /\
    (forall i, i < bs * size_local (maps r) -> nth_error (y r) i = nth_error (x r) i) /\
    (forall k g o j, nth_error (im_ghosts (maps r)) k = Some g -> o < P -> owns (maps o) g -> j < bs ->
       nth_error (y r) (bs * (size_local (maps r) + k) + j) = nth_error (x o) (bs * (g - im_lo (maps o)) + j)) /\
    vec_scatter_fwd P maps bs T y r = Some (y r).
Proof. exact fwd_stmt. Qed.
Print Assumptions C17_scatter_fwd.

(** C18, for any accumulation operation: it is applied once for each ghost copy, in rank
    order. *)
Theorem C18_scatter_rev :
  forall P maps bs T (dflt : T) op x, maps_ok P maps -> full_size P maps bs x ->
  forall r, r < P -> exists y, vec_scatter_rev P maps bs T op x r = Some y /\
    length y = length (x r) /\
    (forall i j, i < size_local (maps r) -> j < bs ->
       nth_error y (bs * i + j)
       = option_map (fold_left op (ghost_copies P maps bs dflt x (im_lo (maps r) + i) j)) (nth_error (x r) (bs * i + j))) /\
    (forall i, bs * size_local (maps r) <= i -> nth_error y i = nth_error (x r) i).
Proof. exact rev_stmt. Qed.
Print Assumptions C18_scatter_rev.

(** C18, with addition. *)
Theorem C18_scatter_rev_add :
  forall P maps bs T (zero one : T) add mul sub opp x, ring_theory zero one add mul sub opp eq ->
  maps_ok P maps -> full_size P maps bs x ->
  forall r, r < P -> exists y, vec_scatter_rev P maps bs T add x r = Some y /\
    length y = length (x r) /\
    (forall i j v, i < size_local (maps r) -> j < bs -> nth_error (x r) (bs * i + j) = Some v ->
       nth_error y (bs * i + j) = Some (add v (tsum T zero add (ghost_copies P maps bs zero x (im_lo (maps r) + i) j)))) /\
    (forall i, bs * size_local (maps r) <= i -> nth_error y i = nth_error (x r) i).
Proof. exact rev_sum_stmt. Qed.
Print Assumptions C18_scatter_rev_add.

(** C19.  [conj] is any function on scalars: the identity for real scalars, complex
    conjugation for complex ones. *)
Theorem C19_adjoint :
  forall P maps bs T (zero one : T) add mul sub opp (conj : T -> T) x y,
  ring_theory zero one add mul sub opp eq -> maps_ok P maps -> full_size P maps bs x -> full_size P maps bs y ->
  exists fx ry, (forall r, r < P -> vec_scatter_fwd P maps bs T x r = Some (fx r)) /\
    (forall r, r < P -> vec_scatter_rev P maps bs T add y r = Some (ry r)) /\
    total T zero add P (fun r => sdot T zero add mul conj (bs * (size_local (maps r) + num_ghosts (maps r))) (fx r) (y r))
    = total T zero add P (fun r => sdot T zero add mul conj (bs * size_local (maps r)) (x r) (ry r)).
Proof. exact adjoint_stmt. Qed.
Print Assumptions C19_adjoint.

(** C20: the global vector has one entry for each component of each global index, and it
    is the owner's value; the reductions are those of this vector. *)
Theorem C20_global_entries :
  forall P T (v : vec T), maps_ok P (v_map T v) -> sized P v ->
  forall q g j, q < P -> owns (v_map T v q) g -> j < v_bs T v ->
  nth_error (global_vec P v) (v_bs T v * g + j) = nth_error (v_x T v q) (v_bs T v * (g - im_lo (v_map T v q)) + j).
Proof. exact entry_stmt. Qed.
Print Assumptions C20_global_entries.

Theorem C20_global_length :
  forall P T (v : vec T), sized P v ->
  length (global_vec P v) = v_bs T v * lsum (map (fun q => size_local (v_map T v q)) (seq 0 P)).
Proof. exact glen_stmt. Qed.
Print Assumptions C20_global_length.

Theorem C20_inner_product :
  forall P T (zero one : T) add mul sub opp conj a b, ring_theory zero one add mul sub opp eq ->
  sized P a -> sized P b -> (forall r, r < P -> local_size T a r = local_size T b r) ->
  inner_product T zero add mul conj P a b = Some (dot T zero add mul conj (global_vec P a) (global_vec P b)).
Proof. exact inner_stmt. Qed.
Print Assumptions C20_inner_product.

Theorem C20_norm_l1 :
  forall T U (uzero : U) uadd (absv : T -> U) P x,
  (forall a b c, uadd a (uadd b c) = uadd (uadd a b) c) -> (forall a, uadd uzero a = a) -> (forall a, uadd a uzero = a) ->
  sized P x ->
  norm_l1 T U uzero uadd absv P x = Some (fold_right uadd uzero (map absv (global_vec P x))).
Proof. exact norm_l1_ok. Qed.
Print Assumptions C20_norm_l1.

(** What is missing from the full statement: ranks that own no entry. *)
Theorem C20_norm_linf_partial :
  forall T U (ultb : U -> U -> bool) (absv normv : T -> U) P,
  (forall a b, ultb a b = true -> ultb b a = false) ->
  (forall a b c, ultb a b = false -> ultb b c = false -> ultb a c = false) ->
  (forall a b, ultb (normv a) (normv b) = ultb (absv a) (absv b)) ->
  forall x, 0 < P -> sized P x -> (forall r, r < P -> 0 < local_size T x r) ->
  exists m, norm_linf T U ultb absv normv P x = Some (absv m) /\ In m (global_vec P x) /\
            forall v, In v (global_vec P x) -> ultb (absv m) (absv v) = false.
Proof. exact norm_linf_ok. Qed.
Print Assumptions C20_norm_linf_partial.

(** On such a rank the code dereferences the end of an empty range. *)
Theorem C20_norm_linf_refuted :
  forall T U (ultb : U -> U -> bool) (absv normv : T -> U) P x r,
  r < P -> local_size T x r = 0 -> norm_linf T U ultb absv normv P x = None.
Proof. exact norm_linf_fails. Qed.
Print Assumptions C20_norm_linf_refuted.

(** C21 for real scalars: on success the result is orthonormal, and the [k]th input is a
    combination of the first [k+1] results.  Complex scalars are missing. *)
Theorem C21_orthonormalize_real_partial :
  forall P eps basis res (v0 : vec R), (0 < eps)%R ->
  orthonormalize R R0 Rplus Rminus Rmult Rdiv (fun x => x) sqrt (Rsmall eps) P basis = Some res ->
  (forall v, In v basis -> alike P v v0) -> sized P v0 ->
  length res = length basis /\
  (forall i j a b, nth_error res i = Some a -> nth_error res j = Some b ->
     inner_product R R0 Rplus Rmult (fun x => x) P a b = Some (if i =? j then R1 else R0)) /\
  (forall k b, nth_error basis k = Some b -> exists cs, length cs = S k /\
     forall p, nth p (global_vec P b) R0 =
       tsum R R0 Rplus (map (fun cv => Rmult (fst cv) (nth p (global_vec P (snd cv)) R0)) (combine cs (firstn (S k) res)))).
Proof. exact ortho_real_stmt. Qed.
Print Assumptions C21_orthonormalize_real_partial.

(** C21 fails for complex scalars: the basis (1,0), (3i/2,4) on one rank. *)
Theorem C21_orthonormalize_complex_refuted :
  exists a b, cq_ortho cq_basis = Some [a; b] /\
    cq_inner a b = Some (0#1, 3#5)%Q /\ cq_inner a a = Some cq1 /\ cq_inner b b = Some cq1 /\
    cq_is_ortho [a; b] = Some false.
Proof. exact cq_refuted. Qed.
Print Assumptions C21_orthonormalize_complex_refuted.

(** What [is_orthonormal] decides. *)
Theorem C21_is_orthonormal :
  forall T (zero : T) add sub mul conj P one far basis,
  is_orthonormal T zero add sub mul conj P one far basis = Some true <->
  forall i j a b, i <= j -> nth_error basis i = Some a -> nth_error basis j = Some b ->
    exists d, inner_product T zero add mul conj P a b = Some d /\ far (sub (if i =? j then one else zero) d) = false.
Proof. exact is_orthonormal_stmt. Qed.
Print Assumptions C21_is_orthonormal.

(** The three-rank world of PropIndexMap.v with block size 2 and integer values. *)
Definition ex_x (r : nat) : list Z :=
  match r with
  | 0 => [1;2; 3;4; 5;6; 0;0]%Z
  | 1 => [10;20; 30;40; 50;60]%Z
  | 2 => [7;8; 9;10; 100;200]%Z
  | _ => []
  end.
Example ex_full : full_size 3 ex_maps 2 ex_x.
Proof. intros [|[|[|r]]] Hr; try lia; vm_compute; reflexivity. Qed.
Example ex_fwd : map (vec_scatter_fwd 3 ex_maps 2 Z ex_x) (seq 0 3)
  = [Some [1;2; 3;4; 5;6; 9;10]; Some [9;10; 1;2; 5;6]; Some [7;8; 9;10; 5;6]]%Z.
Proof. vm_compute. reflexivity. Qed.
Example ex_rev : map (vec_scatter_rev 3 ex_maps 2 Z Z.add ex_x) (seq 0 3)
  = [Some [31;42; 3;4; 155;266; 0;0]; Some [10;20; 30;40; 50;60]; Some [7;8; 19;30; 100;200]]%Z.
Proof. vm_compute. reflexivity. Qed.
Definition ex_v : vec Z := mkVec Z ex_maps 2 ex_x.
Example ex_norms : inner_product Z 0%Z Z.add Z.mul (fun x => x) 3 ex_v ex_v = Some 385%Z /\
  norm_l1 Z Z 0%Z Z.add Z.abs 3 ex_v = Some 55%Z /\
  norm_linf Z Z Z.ltb Z.abs Z.square 3 ex_v = None.
Proof. vm_compute. split; [reflexivity|split; reflexivity]. Qed.
Example ex_linf : norm_linf Z Z Z.ltb Z.abs Z.square 2 (mkVec Z (imap_plain 2 (fun _ => 2)) 1 (fun r => match r with 0 => [1; -9]%Z | _ => [4; 5]%Z end))
  = Some 9%Z.
Proof. vm_compute. reflexivity. Qed.
(** The basis (3,4) on one rank satisfies the hypotheses of C21. *)
Definition ex_b : vec R := mkVec R (imap_plain 1 (fun _ => 2)) 1 (fun _ => [3; 4])%R.
Example ex_ortho : sized 1 ex_b /\ exists res,
  orthonormalize R R0 Rplus Rminus Rmult Rdiv (fun x => x) sqrt (Rsmall 1) 1 [ex_b] = Some res.
Proof.
  split; [intros [|r] Hr; [vm_compute; lia|lia]|]. unfold orthonormalize. cbn [ofold].
  unfold ortho_one. cbn [ofold obind].
  rewrite (inner_stmt 1 R R0 R1 Rplus Rmult Rminus Ropp (fun x => x) ex_b ex_b RTheory); [|intros [|r] Hr; [vm_compute; lia|lia]..|reflexivity].
  cbn [obind]. rewrite Rdot_sqrt.
  replace (dot R R0 Rplus Rmult (fun x => x) (global_vec 1 ex_b) (global_vec 1 ex_b)) with 25%R.
  - unfold Rsmall. destruct (Rlt_dec 25 1) as [H|H]; [|cbn [obind]; eexists; reflexivity]. exfalso. revert H. apply Rle_not_lt. apply (IZR_le 1 25). discriminate.
  - change (global_vec 1 ex_b) with [3; 4]%R. unfold dot. cbn [combine map fst snd]. rewrite !tsum_cons, tsum_nil. change R0 with 0%R. ring.
Qed.
