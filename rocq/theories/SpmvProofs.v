(** Proofs about products of a distributed matrix and a vector. *)
From Coq Require Import Ring.
From Verif Require Import Base BaseProofs BucketProofs Algo AlgoProofs World WorldProofs IndexMap IndexMapSpec IndexMapProofs
  ImSharedProofs Scatterer ScattererProofs RoundTrip VectorOps VectorSpec VectorOpsProofs VectorStmts SparsityProofs
  MatrixCSR MatrixSpec MatrixProofs MatrixDense MatrixPar MatrixParSpec MatrixParProofs.
From Verif Require StackProofs.
Open Scope nat_scope.

Section Ring.
Context {T : Type}.
Variables (zero one : T) (add mul sub : T -> T -> T) (opp : T -> T).
Hypothesis Rth : ring_theory zero one add mul sub opp eq.
Add Ring Tr : Rth.
Notation tsum := (VectorOps.tsum T zero add).

Lemma acc_ok {A} (F : T -> A -> option T) (t : A -> T) l : (forall j v, In j l -> F v j = Some (add v (t j))) ->
  forall v, ofold F l v = Some (add v (tsum (map t l))).
Proof.
  induction l as [|x l IH]; intros H v; [cbn [ofold map]; rewrite tsum_nil; f_equal; ring|].
  cbn [ofold map]. rewrite H by now left. cbn [obind]. rewrite IH by (intros; apply H; now right). rewrite tsum_cons. f_equal. ring.
Qed.

Lemma nested_runs {S A B} (f : S -> A -> option S) (g : A -> list B) (h : S -> B -> option S) l :
  (forall a s, In a l -> f s a = ofold h (g a) s) -> forall s, ofold f l s = ofold h (concat (map g l)) s.
Proof.
  induction l as [|x l IH]; intros H s; [reflexivity|]. cbn [ofold map concat]. rewrite H by now left. rewrite ofold_app.
  destruct (ofold h (g x) s); [|reflexivity]. cbn [obind]. apply IH. intros; apply H; now right.
Qed.
Lemma map_runs {S A B} (f : S -> A -> option S) (g : A -> B) (h : S -> B -> option S) l :
  (forall a s, In a l -> f s a = h s (g a)) -> forall s, ofold f l s = ofold h (map g l) s.
Proof.
  induction l as [|x l IH]; intros H s; [reflexivity|]. cbn [ofold map]. rewrite H by now left.
  destruct (h s (g x)); [|reflexivity]. cbn [obind]. apply IH. intros; apply H; now right.
Qed.

Lemma vals_grid {V} n b (f : nat -> V) c k : k < b ->
  vals (c * b + k) (map (fun k' => (n * b + k', f k')) (seq 0 b)) = if n =? c then [f k] else [].
Proof.
  intro Hk. rewrite vals_map_filter. destruct (Nat.eqb_spec n c) as [->|N].
  - rewrite (filter_single _ _ k); [reflexivity|apply seq_NoDup|apply in_seq; lia|cbn; apply Nat.eqb_refl|].
    intros y Hy E. cbn in E. apply Nat.eqb_eq in E. lia.
  - rewrite filter_none; [reflexivity|]. intros y Hy. apply in_seq in Hy. cbn. apply Nat.eqb_neq. intro E.
    apply block_inj in E as (E & _); lia.
Qed.

(** ** spmv *)
Lemma spmv_ok b0 b1 values rb re idxs x y n (A B cl : nat -> nat) (val : nat -> nat -> nat -> T) (xv : nat -> nat -> T) :
  length rb = n -> length re = n ->
  (forall i, i < n -> nth_error rb i = Some (A i) /\ nth_error re i = Some (B i)) ->
  (forall i j, i < n -> A i <= j < B i -> nth_error idxs j = Some (cl j) /\
     forall k0 k1, k0 < b0 -> k1 < b1 -> nth_error values (j * b0 * b1 + k0 * b1 + k1) = Some (val j k0 k1) /\
                                         nth_error x (cl j * b1 + k1) = Some (xv (cl j) k1)) ->
  n * b0 <= length y ->
  exists y', spmv zero add mul b0 b1 values rb re idxs x y = Some y' /\ length y' = length y /\
    (forall i k0, i < n -> k0 < b0 -> nth (i * b0 + k0) y' zero = add (nth (i * b0 + k0) y zero)
       (tsum (map (fun j => tsum (map (fun k1 => mul (val j k0 k1) (xv (cl j) k1)) (seq 0 b1))) (seq (A i) (B i - A i))))) /\
    (forall p, n * b0 <= p -> nth_error y' p = nth_error y p).
Proof.
  intros Hrb Hre Hab Hj Hy. set (V := fun i k0 => tsum (map (fun j => tsum (map (fun k1 => mul (val j k0 k1) (xv (cl j) k1)) (seq 0 b1))) (seq (A i) (B i - A i)))).
  set (U := concat (map (fun k0 => map (fun i => (i * b0 + k0, V i k0)) (seq 0 n)) (seq 0 b0))).
  destruct (updates_ok add U y) as (y' & Ey & Hl & Hv).
  { intros p v H. apply in_concat in H as (l & Hl & H). apply in_map_iff in Hl as (k0 & <- & Hk0). apply in_map_iff in H as (i & E & Hi).
    injection E as <- _. apply in_seq in Hk0, Hi. nia. }
  assert (HU : forall p v, In (p, v) U -> p < n * b0).
  { intros p v H. apply in_concat in H as (l & Hl' & H). apply in_map_iff in Hl' as (k0 & <- & Hk0). apply in_map_iff in H as (i & E & Hi).
    injection E as <- _. apply in_seq in Hk0, Hi. nia. }
  exists y'. split; [|split; [exact Hl|split]].
  - unfold spmv. rewrite Hre, Hrb, Nat.eqb_refl. rewrite <- Ey. unfold U. apply nested_runs. intros k0 s Hk0. apply in_seq in Hk0.
    apply map_runs. intros i s' Hi. apply in_seq in Hi. destruct (Hab i) as (Ea & Eb); [lia|]. rewrite Ea, Eb. cbn [obind].
    rewrite (acc_ok _ (fun j => tsum (map (fun k1 => mul (val j k0 k1) (xv (cl j) k1)) (seq 0 b1)))).
    + cbn [obind]. unfold upd1. cbn [fst snd]. fold (V i k0). f_equal. ring.
    + intros j v Hjin. apply in_seq in Hjin. apply acc_ok. intros k1 v' Hk1. apply in_seq in Hk1.
      destruct (Hj i j) as (Ec & Hvx); [lia|lia|]. destruct (Hvx k0 k1) as (E1 & E2); [lia|lia|]. rewrite E1, Ec. cbn [obind]. now rewrite E2.
  - intros i k0 Hi Hk0. assert (Hlt : i * b0 + k0 < length y) by nia. specialize (Hv _ _ (nth_error_nth_some _ _ zero Hlt)). rewrite (nth_error_nth _ _ zero Hv).
    rewrite (fold_left_tsum T zero one add mul sub opp Rth). f_equal.
    assert (E : vals (i * b0 + k0) U = [V i k0]).
    { unfold U. rewrite vals_concat, map_map. rewrite (concat_single _ _ k0); [|apply seq_NoDup|apply in_seq; lia|].
      - rewrite vals_map_filter. rewrite (filter_single _ _ i); [reflexivity|apply seq_NoDup|apply in_seq; lia|apply Nat.eqb_refl|].
        intros i' Hi' E. apply Nat.eqb_eq in E. assert (i' * b0 = i * b0) by lia. nia.
      - intros k0' Hk' N. apply in_seq in Hk'. rewrite vals_map_filter, filter_none; [reflexivity|]. intros i' Hi'. apply Nat.eqb_neq. intro E.
        apply block_inj in E as (_ & E); lia. }
    rewrite E. rewrite tsum_cons, tsum_nil. fold (V i k0). ring.
  - intros p Hp. destruct (nth_error y p) as [v|] eqn:Ep.
    + rewrite (Hv p v Ep). replace (vals p U) with (@nil T); [reflexivity|]. symmetry. destruct (vals p U) as [|w t] eqn:E; [reflexivity|].
      assert (Hin : In w (vals p U)) by (rewrite E; now left). apply vals_in in Hin. apply HU in Hin. lia.
    + apply nth_error_None. apply nth_error_None in Ep. lia.
Qed.

(** ** spmvT *)
Lemma spmvT_ok b0 b1 values rb re idxs x y n m (A B cl : nat -> nat) (val : nat -> nat -> nat -> T) (xv : nat -> nat -> T) :
  length rb = n -> length re = n ->
  (forall i, i < n -> nth_error rb i = Some (A i) /\ nth_error re i = Some (B i)) ->
  (forall i k0, i < n -> k0 < b0 -> nth_error x (i * b0 + k0) = Some (xv i k0)) ->
  (forall i j, i < n -> A i <= j < B i -> nth_error idxs j = Some (cl j) /\ cl j < m /\
     forall k0 k1, k0 < b0 -> k1 < b1 -> nth_error values (j * b0 * b1 + k0 * b1 + k1) = Some (val j k0 k1)) ->
  m * b1 <= length y ->
  exists y', spmvT add mul b0 b1 values rb re idxs x y = Some y' /\ length y' = length y /\
    forall c k1, c < m -> k1 < b1 -> nth (c * b1 + k1) y' zero = add (nth (c * b1 + k1) y zero)
       (tsum (map (fun k0 => tsum (map (fun i => tsum (map (fun j => if cl j =? c then mul (val j k0 k1) (xv i k0) else zero) (seq (A i) (B i - A i)))) (seq 0 n))) (seq 0 b0))).
Proof.
  intros Hrb Hre Hab Hx Hj Hy.
  set (U := concat (map (fun k0 => concat (map (fun i => concat (map (fun j => map (fun k1 => (cl j * b1 + k1, mul (val j k0 k1) (xv i k0))) (seq 0 b1)) (seq (A i) (B i - A i)))) (seq 0 n))) (seq 0 b0))).
  destruct (updates_ok add U y) as (y' & Ey & Hl & Hv).
  { intros p v H. apply in_concat in H as (l & Hl & H). apply in_map_iff in Hl as (k0 & <- & Hk0). apply in_concat in H as (l & Hl & H). apply in_map_iff in Hl as (i & <- & Hi).
    apply in_concat in H as (l & Hl & H). apply in_map_iff in Hl as (j & <- & Hjj). apply in_map_iff in H as (k1 & E & Hk1).
    injection E as <- _. apply in_seq in Hi, Hjj, Hk1. destruct (Hj i j) as (_ & Hc & _); [lia|lia|]. nia. }
  exists y'. split; [|split; [exact Hl|]].
  - unfold spmvT. rewrite Hre, Hrb, Nat.eqb_refl. rewrite <- Ey. unfold U. apply nested_runs. intros k0 s Hk0. apply in_seq in Hk0.
    apply nested_runs. intros i s' Hi. apply in_seq in Hi. destruct (Hab i) as (Ea & Eb); [lia|]. rewrite Hx by lia. rewrite Ea, Eb. cbn [obind].
    apply nested_runs. intros j s2 Hjj. apply in_seq in Hjj. apply map_runs. intros k1 s3 Hk1. apply in_seq in Hk1.
    destruct (Hj i j) as (Ec & _ & Hvx); [lia|lia|]. rewrite Hvx, Ec by lia. reflexivity.
  - intros c k1 Hc Hk1. assert (Hlt : c * b1 + k1 < length y) by nia. specialize (Hv _ _ (nth_error_nth_some _ _ zero Hlt)). rewrite (nth_error_nth _ _ zero Hv).
    rewrite (fold_left_tsum T zero one add mul sub opp Rth). f_equal. unfold U.
    rewrite vals_concat, (tsum_concat T zero one add mul sub opp Rth), !map_map. apply tsum_ext. intros k0 _.
    rewrite vals_concat, (tsum_concat T zero one add mul sub opp Rth), !map_map. apply tsum_ext. intros i _.
    rewrite vals_concat, (tsum_concat T zero one add mul sub opp Rth), !map_map. apply tsum_ext. intros j _.
    rewrite (vals_grid (cl j) b1 (fun k1 => mul (val j k0 k1) (xv i k0)) c k1 Hk1). destruct (cl j =? c); rewrite ?tsum_cons, ?tsum_nil; [ring|reflexivity].
Qed.
End Ring.
