(** Proofs about geometry maps. *)
From Coq Require Import Reals Lra.
From Verif Require Import Base BaseProofs CellMap CellMapSpec.
Open Scope nat_scope.

(** ** Sums *)
Lemma accumulate_total n f c : accumulate n f c = (c + total n f)%R.
Proof.
  unfold accumulate. induction n as [|n IH]; [cbn; ring|].
  rewrite seq_S, fold_left_app, IH. cbn [Nat.add fold_left total]. ring.
Qed.
Lemma total_ext n f g : (forall k, k < n -> f k = g k) -> total n f = total n g.
Proof. induction n as [|n IH]; intro H; [reflexivity|]. cbn [total]. rewrite IH, (H n) by (intros; try apply H; lia). reflexivity. Qed.
Lemma total_plus n f g : total n (fun k => f k + g k)%R = (total n f + total n g)%R.
Proof. induction n as [|n IH]; cbn [total]; [ring|rewrite IH; ring]. Qed.
Lemma total_scale n a f : total n (fun k => a * f k)%R = (a * total n f)%R.
Proof. induction n as [|n IH]; cbn [total]; [ring|rewrite IH; ring]. Qed.
Lemma total_zero n : total n (fun _ => 0%R) = 0%R.
Proof. induction n as [|n IH]; cbn [total]; [reflexivity|rewrite IH; ring]. Qed.
Lemma total_swap m n (f : nat -> nat -> R) : total m (fun i => total n (f i)) = total n (fun j => total m (fun i => f i j)).
Proof.
  induction m as [|m IH]; cbn [total]; [symmetry; apply total_zero|]. rewrite IH, <- total_plus. reflexivity.
Qed.
Lemma total_first n f : total (S n) f = (f 0%nat + total n (fun k => f (S k)))%R.
Proof. induction n as [|n IH]; [cbn; ring|]. cbn [total] in *. rewrite IH. ring. Qed.
Lemma total_pick n i f : i < n -> total n (fun k => identity i k * f k)%R = f i.
Proof.
  unfold identity. induction n as [|n IH]; intro H; [lia|]. cbn [total]. destruct (Nat.eqb_spec i n) as [->|N].
  - rewrite (total_ext n _ (fun _ => 0%R)); [rewrite total_zero; ring|]. intros k Hk. destruct (Nat.eqb_spec n k); [lia|ring].
  - rewrite IH by lia. ring.
Qed.
Lemma total_nonneg n f : (forall k, k < n -> (0 <= f k)%R) -> (0 <= total n f)%R.
Proof. induction n as [|n IH]; intro H; cbn [total]; [lra|]. assert (0 <= f n)%R by (apply H; lia). assert (0 <= total n f)%R by (apply IH; intros; apply H; lia). lra. Qed.

(** ** Small matrices *)
Lemma dop a b c d : difference_of_products a b c d = (a * d - b * c)%R.
Proof. unfold difference_of_products. ring. Qed.

Lemma det_ok n A : 1 <= n <= 3 -> det n A = Some (determinant n A).
Proof.
  intro H. destruct n as [|[|[|[|n]]]]; try lia; cbn [det]; rewrite ?dop; f_equal; cbn [determinant total Nat.even]; unfold minor; cbn [Nat.ltb Nat.leb]; ring.
Qed.
Lemma det_ext n A B : (forall i j, i < n -> j < n -> A i j = B i j) -> determinant n A = determinant n B.
Proof.
  revert A B. induction n as [|n IH]; intros A B H; [reflexivity|]. cbn [determinant]. apply total_ext. intros j Hj.
  rewrite H by lia. f_equal. apply IH. intros i k Hi Hk. unfold minor. apply H; [lia|]. destruct (Nat.ltb_spec k j); lia.
Qed.

Ltac three i := destruct i as [|[|[|i]]]; try lia.
(** Kernel vectors *)
Definition vec (a b c : R) (j : nat) : R := match j with 0 => a | 1 => b | _ => c end.

Lemma det0_dependent n A : 1 <= n <= 3 -> determinant n A = 0%R -> independent n n A -> False.
Proof.
  intros Hn D HI. destruct n as [|[|[|[|n]]]]; try lia; cbn [determinant total Nat.even] in D; unfold minor in D; cbn [Nat.ltb Nat.leb] in D.
  - specialize (HI (fun _ => 1%R)). cbn [total] in HI. assert (1 = 0)%R by (apply (HI) with (j := 0); [intros i Hi; three i; lra|lia]). lra.
  - assert (K : forall a b, (A 0%nat 0%nat * a + A 0%nat 1%nat * b = 0)%R -> (A 1%nat 0%nat * a + A 1%nat 1%nat * b = 0)%R -> a = 0%R /\ b = 0%R).
    { intros a b E0 E1. assert (Z : forall j, j < 2 -> vec a b 0 j = 0%R).
      { apply HI. intros i Hi. cbn [total vec]. three i; lra. } split; [exact (Z 0 ltac:(lia))|exact (Z 1 ltac:(lia))]. }
    destruct (K (A 0%nat 1%nat) (- A 0%nat 0%nat)%R) as (Z1 & Z0); [ring|lra|]. destruct (K (A 1%nat 1%nat) (- A 1%nat 0%nat)%R) as (Z3 & Z2); [lra|ring|].
    assert (A 0%nat 0%nat = 0)%R by lra. assert (A 1%nat 0%nat = 0)%R by lra. destruct (K 1%R 0%R); [rewrite H, Z1; ring|rewrite H0, Z3; ring|lra].
  - assert (K : forall a b c, (A 0%nat 0%nat * a + A 0%nat 1%nat * b + A 0%nat 2%nat * c = 0)%R -> (A 1%nat 0%nat * a + A 1%nat 1%nat * b + A 1%nat 2%nat * c = 0)%R ->
        (A 2%nat 0%nat * a + A 2%nat 1%nat * b + A 2%nat 2%nat * c = 0)%R -> a = 0%R /\ b = 0%R /\ c = 0%R).
    { intros a b c E0 E1 E2. assert (Z : forall j, j < 3 -> vec a b c j = 0%R).
      { apply HI. intros i Hi. cbn [total vec]. three i; lra. }
      split; [exact (Z 0 ltac:(lia))|]. split; [exact (Z 1 ltac:(lia))|exact (Z 2 ltac:(lia))]. }
    set (a := A 0%nat 0%nat) in *. set (b := A 0%nat 1%nat) in *. set (c := A 0%nat 2%nat) in *. set (d := A 1%nat 0%nat) in *. set (e := A 1%nat 1%nat) in *. set (f := A 1%nat 2%nat) in *.
    set (g := A 2%nat 0%nat) in *. set (h := A 2%nat 1%nat) in *. set (k := A 2%nat 2%nat) in *.
    destruct (K (e * k - f * h)%R (f * g - d * k)%R (d * h - e * g)%R) as (M00 & M01 & M02); [lra|ring|ring|].
    destruct (K (h * c - k * b)%R (k * a - g * c)%R (g * b - h * a)%R) as (M10 & M11 & M12); [ring|lra|ring|].
    destruct (K (b * f - c * e)%R (c * d - a * f)%R (a * e - b * d)%R) as (M20 & M21 & M22); [ring|ring|lra|].
    destruct (K b (- a)%R 0%R) as (B0 & A0 & _); [lra|lra|lra|].
    destruct (K c 0%R (- a)%R) as (C0 & _ & _); [lra|lra|lra|].
    destruct (K e (- d)%R 0%R) as (E0 & D0 & _); [lra|lra|lra|].
    destruct (K f 0%R (- d)%R) as (F0 & _ & _); [lra|lra|lra|].
    destruct (K h (- g)%R 0%R) as (H0 & G0 & _); [lra|lra|lra|].
    destruct (K k 0%R (- g)%R) as (K0 & _ & _); [lra|lra|lra|].
    assert (a = 0)%R by lra. assert (d = 0)%R by lra. assert (g = 0)%R by lra.
    destruct (K 1%R 0%R 0%R) as (F & _); [rewrite H; ring|rewrite H1; ring|rewrite H2; ring|lra].
Qed.

Lemma quotient_ok a b : b <> 0%R -> quotient a b = Some (a / b)%R.
Proof. unfold quotient. destruct (Req_EM_T b 0); congruence. Qed.
Lemma quotient_inv a b q : quotient a b = Some q -> b <> 0%R /\ q = (a / b)%R.
Proof. unfold quotient. destruct (Req_EM_T b 0); intro H; [discriminate|]. injection H as <-. auto. Qed.

Lemma inv_some n A : 1 <= n <= 3 -> determinant n A <> 0%R -> exists K, inv n A = Some K.
Proof.
  intros Hn D. pose proof (det_ok n A Hn) as E. destruct n as [|[|[|[|n]]]]; try lia; unfold inv.
  - assert (E' : A 0%nat 0%nat = determinant 1 A) by (injection E as E; exact E). rewrite E', quotient_ok by exact D. cbn [obind]. eauto.
  - rewrite E. cbn [obind]. rewrite quotient_ok by exact D. cbn [obind]. eauto.
  - cbv zeta. rewrite quotient_ok; [cbn [obind]; eauto|]. intro F. apply D. injection E as E. rewrite <- F. symmetry. exact E.
Qed.
Lemma inv_ok n A K : inv n A = Some K ->
  (1 <= n <= 3) /\ (forall i j, i < n -> j < n -> product n K A i j = identity i j) /\ (forall i j, i < n -> j < n -> product n A K i j = identity i j).
Proof.
  unfold inv, product, identity. destruct n as [|[|[|[|n]]]]; try discriminate.
  - destruct (quotient 1 (A 0%nat 0%nat)) as [q|] eqn:Q; cbn [obind]; [|discriminate]. apply quotient_inv in Q as (N & ->). intro H. injection H as <-.
    split; [lia|]. split; intros i j Hi Hj; assert (i = 0) by lia; assert (j = 0) by lia; subst; cbn [total Nat.eqb]; field; exact N.
  - cbn [det obind]. destruct (quotient _ _) as [q|] eqn:Q; cbn [obind]; [|discriminate]. apply quotient_inv in Q as (N & ->). rewrite dop in *. intro H. injection H as <-.
    split; [lia|]. split; intros i j Hi Hj; three i; three j; cbn [total Nat.eqb]; field; exact N.
  - cbv zeta. destruct (quotient _ _) as [q|] eqn:Q; cbn [obind]; [|discriminate]. apply quotient_inv in Q as (N & ->). rewrite !dop in *. intro H. injection H as <-.
    split; [lia|]. split; intros i j Hi Hj; three i; three j; cbn [total Nat.eqb]; rewrite ?dop; field; exact N.
Qed.

Lemma independent_det n A : 1 <= n <= 3 -> independent n n A -> determinant n A <> 0%R.
Proof. intros Hn HI D. exact (det0_dependent n A Hn D HI). Qed.
(** A left inverse makes columns independent. *)
Lemma left_inverse_independent m n A K : (forall i j, i < n -> j < n -> product m K A i j = identity i j) -> independent m n A.
Proof.
  intros HK c Hc j Hj.
  assert (E : total n (fun k => identity j k * c k)%R = 0%R).
  { rewrite (total_ext n _ (fun k => total m (fun i => (K j i * A i k) * c k)%R)).
    2:{ intros k Hk. rewrite <- HK by assumption. unfold product. rewrite Rmult_comm, <- total_scale. apply total_ext. intros; ring. }
    rewrite total_swap. rewrite (total_ext m _ (fun _ => 0%R)); [apply total_zero|]. intros i Hi.
    rewrite (total_ext n _ (fun k => K j i * (A i k * c k))%R) by (intros; ring). rewrite total_scale, Hc by exact Hi. ring. }
  rewrite total_pick in E by exact Hj. exact E.
Qed.

Lemma gram_ext (m n : nat) A : forall i j, dot m (transposed A) A zeros i j = gram m A i j.
Proof. intros i j. unfold dot, gram, product. rewrite accumulate_total. unfold zeros. ring. Qed.

(** ** The inverse of a Jacobian *)
Lemma square_sum_zero a b : (0 <= a)%R -> (0 <= b)%R -> (a + b = 0)%R -> a = 0%R /\ b = 0%R.
Proof. lra. Qed.

Lemma gram_det_pos gdim tdim J : dims gdim tdim -> independent gdim tdim J -> (0 < determinant tdim (gram gdim J))%R.
Proof.
  intros (Ht & Hg) HI.
  assert (HN : (0 <= determinant tdim (gram gdim J))%R /\ determinant tdim (gram gdim J) <> 0%R); [|lra].
  assert (Sq : forall r, (0 <= r * r)%R) by (intro r; apply Rle_0_sqr).
  assert (Z : forall r, (r * r = 0)%R -> r = 0%R) by (intros r H; apply Rmult_integral in H; tauto).
  destruct tdim as [|[|[|[|tdim]]]]; try lia.
  - unfold gram, product, transposed. cbn [determinant total Nat.even].
    assert (E : (0 + 1 * total gdim (fun k => J k 0%nat * J k 0%nat) * 1 = total gdim (fun k => J k 0%nat * J k 0%nat))%R) by ring. rewrite E.
    split; [apply total_nonneg; intros; apply Sq|]. intro F.
    assert (V : forall i, i < gdim -> J i 0%nat = 0%R).
    { clear HI E Hg Ht. induction gdim as [|g IH]; intros i Hi; [lia|]. cbn [total] in F.
      apply square_sum_zero in F as (F1 & F2); [|apply total_nonneg; intros; apply Sq|apply Sq].
      destruct (Nat.eq_dec i g) as [->|N]; [apply Z, F2|apply IH; [exact F1|lia]]. }
    assert (1 = 0)%R; [|lra]. apply (HI (fun _ => 1%R)) with (j := 0); [|lia]. intros i Hi. cbn [total]. rewrite V by exact Hi. ring.
  - assert (K : forall a b, (forall i, i < gdim -> (J i 0%nat * a + J i 1%nat * b = 0)%R) -> a = 0%R /\ b = 0%R).
    { intros a b E. assert (W : forall j, j < 2 -> vec a b 0 j = 0%R).
      { apply HI. intros i Hi. cbn [total vec]. transitivity (J i 0%nat * a + J i 1%nat * b)%R; [ring|apply E, Hi]. } split; [exact (W 0 ltac:(lia))|exact (W 1 ltac:(lia))]. }
    assert (E : determinant 2 (gram gdim J) = (if (gdim =? 2)%nat then (J 0%nat 0%nat * J 1%nat 1%nat - J 0%nat 1%nat * J 1%nat 0%nat)^2
       else (J 0%nat 0%nat * J 1%nat 1%nat - J 0%nat 1%nat * J 1%nat 0%nat)^2 + (J 0%nat 0%nat * J 2%nat 1%nat - J 0%nat 1%nat * J 2%nat 0%nat)^2 + (J 1%nat 0%nat * J 2%nat 1%nat - J 1%nat 1%nat * J 2%nat 0%nat)^2)%R).
    { assert (G : gdim = 2 \/ gdim = 3) by lia. destruct G as [->| ->]; unfold gram, product, transposed; cbn [determinant total Nat.even minor Nat.ltb Nat.leb Nat.eqb]; ring. }
    rewrite E. clear E. assert (G : gdim = 2 \/ gdim = 3) by lia. destruct G as [->| ->]; cbn [Nat.eqb].
    + split; [rewrite <- Rsqr_pow2; apply Rle_0_sqr|]. intro F. replace (_ ^ 2)%R with ((J 0%nat 0%nat * J 1%nat 1%nat - J 0%nat 1%nat * J 1%nat 0%nat) * (J 0%nat 0%nat * J 1%nat 1%nat - J 0%nat 1%nat * J 1%nat 0%nat))%R in F by ring. apply Z in F.
      destruct (K (J 0%nat 1%nat) (- J 0%nat 0%nat)%R) as (Z1 & Z0); [intros i Hi; three i; lra|]. destruct (K (J 1%nat 1%nat) (- J 1%nat 0%nat)%R) as (Z3 & Z2); [intros i Hi; three i; lra|].
      destruct (K 1%R 0%R); [|lra]. intros i Hi. three i; [rewrite Z1; replace (J 0%nat 0%nat) with 0%R by lra|rewrite Z3; replace (J 1%nat 0%nat) with 0%R by lra]; ring.
    + set (p := (J 0%nat 0%nat * J 1%nat 1%nat - J 0%nat 1%nat * J 1%nat 0%nat)%R). set (q := (J 0%nat 0%nat * J 2%nat 1%nat - J 0%nat 1%nat * J 2%nat 0%nat)%R). set (r := (J 1%nat 0%nat * J 2%nat 1%nat - J 1%nat 1%nat * J 2%nat 0%nat)%R).
      pose proof (Sq p) as P1. pose proof (Sq q) as P2. pose proof (Sq r) as P3.
      assert (E : (p ^ 2 + q ^ 2 + r ^ 2 = p * p + q * q + r * r)%R) by ring. rewrite E. split; [lra|]. intro F.
      assert (Ep : p = 0%R) by (apply Z; lra). assert (Eq' : q = 0%R) by (apply Z; lra). assert (Er : r = 0%R) by (apply Z; lra). unfold p, q, r in *.
      destruct (K (J 0%nat 1%nat) (- J 0%nat 0%nat)%R) as (Z1 & Z0); [intros i Hi; three i; lra|]. destruct (K (J 1%nat 1%nat) (- J 1%nat 0%nat)%R) as (Z3 & Z2); [intros i Hi; three i; lra|].
      destruct (K (J 2%nat 1%nat) (- J 2%nat 0%nat)%R) as (Z5 & Z4); [intros i Hi; three i; lra|].
      destruct (K 1%R 0%R); [|lra]. intros i Hi. three i; [rewrite Z1; replace (J 0%nat 0%nat) with 0%R by lra|rewrite Z3; replace (J 1%nat 0%nat) with 0%R by lra|rewrite Z5; replace (J 2%nat 0%nat) with 0%R by lra]; ring.
  - assert (gdim = 3) by lia. subst gdim.
    assert (E : determinant 3 (gram 3 J) = (determinant 3 J * determinant 3 J)%R).
    { unfold gram, product, transposed. cbn [determinant total Nat.even minor Nat.ltb Nat.leb]. unfold minor. cbn [Nat.ltb Nat.leb]. ring. }
    rewrite E. split; [apply Sq|]. intro F. apply Z in F. exact (det0_dependent 3 J ltac:(lia) F HI).
Qed.

Lemma inverse_ok gdim tdim J K : compute_jacobian_inverse gdim tdim J = Some K ->
  (forall i j, i < tdim -> j < tdim -> product gdim K J i j = identity i j) /\
  (gdim = tdim -> forall i j, i < gdim -> j < gdim -> product tdim J K i j = identity i j) /\
  (forall i j, i < tdim -> j < gdim -> product tdim (gram gdim J) K i j = J j i).
Proof.
  unfold compute_jacobian_inverse. destruct (Nat.eqb_spec gdim tdim) as [->|N].
  - intro H. apply inv_ok in H as (Hn & HL & HR). split; [exact HL|]. split; [intros _; exact HR|].
    intros i j Hi Hj. unfold gram, product, transposed.
    rewrite (total_ext tdim _ (fun k => total tdim (fun l => J l i * (J l k * K k j))%R)).
    2:{ intros k Hk. rewrite Rmult_comm, <- total_scale. apply total_ext. intros; ring. }
    rewrite total_swap. rewrite (total_ext tdim _ (fun l => identity j l * J l i)%R); [exact (total_pick tdim j (fun l => J l i) Hj)|].
    intros l Hl. rewrite total_scale. change (total tdim (fun k => (J l k * K k j)%R)) with (product tdim J K l j). rewrite HR by assumption.
    unfold identity. rewrite (Nat.eqb_sym l j). ring.
  - unfold pinv. destruct (Nat.leb_spec gdim tdim) as [L|L]; [discriminate|]. destruct (Nat.eqb_spec tdim 2) as [->|N2].
    + destruct (Nat.eqb_spec gdim 3) as [->|]; [|discriminate]. destruct (inv 2 _) as [Iv|] eqn:E; cbn [obind]; [|discriminate]. intro H. injection H as <-.
      apply inv_ok in E as (_ & HL & HR).
      assert (EK : forall i j, dot 2 Iv (fun i j => J j i) zeros i j = product 2 Iv (transposed J) i j).
      { intros i j. unfold dot. rewrite accumulate_total. unfold zeros, product, transposed. ring. }
      split; [|split; [intro; lia|]].
      * intros i j Hi Hj. unfold product at 1. rewrite (total_ext 3 _ (fun k => product 2 Iv (transposed J) i k * J k j)%R) by (intros; rewrite EK; reflexivity).
        rewrite <- (HL i j Hi Hj). unfold product. rewrite (total_ext 2 (fun k => Iv i k * dot 3 _ _ _ k j)%R (fun k => Iv i k * gram 3 J k j)%R).
        2:{ intros k Hk. rewrite <- (gram_ext 3 2 J k j). reflexivity. }
        unfold gram, product, transposed. cbn [total]. ring.
      * intros i j Hi Hj. unfold product at 1. rewrite (total_ext 2 _ (fun k => gram 3 J i k * product 2 Iv (transposed J) k j)%R) by (intros; rewrite EK; reflexivity).
        unfold product. rewrite (total_ext 2 _ (fun k => total 2 (fun l => (gram 3 J i k * Iv k l) * J j l)%R)).
        2:{ intros k Hk. rewrite <- total_scale. apply total_ext. intros; unfold transposed; ring. }
        rewrite total_swap. rewrite (total_ext 2 _ (fun l => identity i l * J j l)%R); [exact (total_pick 2 i (fun l => J j l) Hi)|].
        intros l Hl. rewrite <- (HR i l Hi Hl). unfold product. rewrite (Rmult_comm _ (J j l)), <- total_scale. apply total_ext. intros k Hk.
        rewrite <- (gram_ext 3 2 J i k). change (fun i0 j0 : nat => J j0 i0) with (transposed J). ring.
    + destruct (Nat.eqb_spec tdim 1) as [->|]; [|discriminate]. destruct (quotient _ _) as [q|] eqn:Q; cbn [obind]; [|discriminate].
      apply quotient_inv in Q as (NZ & ->). rewrite accumulate_total, Rplus_0_l in NZ |- *. intro H. injection H as <-.
      split; [|split; [intro; lia|]].
      * intros i j Hi Hj. assert (i = 0) by lia. assert (j = 0) by lia. subst. unfold product, identity. cbn [Nat.eqb].
        rewrite (total_ext gdim _ (fun k => 1 / total gdim (fun i => J i 0%nat * J i 0%nat) * (J k 0%nat * J k 0%nat))%R) by (intros; ring).
        rewrite total_scale. field. exact NZ.
      * intros i j Hi Hj. assert (i = 0) by lia. subst. unfold gram, product, transposed. cbn [total]. field. exact NZ.
Qed.
Lemma inverse_some gdim tdim J : dims gdim tdim -> independent gdim tdim J -> exists K, compute_jacobian_inverse gdim tdim J = Some K.
Proof.
  intros Hd HI. pose proof Hd as (Ht & Hg). unfold compute_jacobian_inverse. destruct (Nat.eqb_spec gdim tdim) as [->|N].
  - apply inv_some; [lia|]. apply independent_det; [lia|exact HI].
  - pose proof (gram_det_pos gdim tdim J Hd HI) as GP. unfold pinv. rewrite (proj2 (Nat.leb_gt gdim tdim)) by lia.
    destruct (Nat.eqb_spec tdim 2) as [->|N2].
    + assert (gdim = 3) by lia. subst gdim. cbn [Nat.eqb].
      destruct (inv_some 2 (dot 3 (fun i j => J j i) J zeros)) as (Iv & ->); [lia| |cbn [obind]; eauto].
      rewrite (det_ext 2 _ (gram 3 J)) by (intros i j _ _; exact (gram_ext 3 2 J i j)). lra.
    + assert (tdim = 1) by lia. subst tdim. cbn [Nat.eqb]. rewrite quotient_ok; [cbn [obind]; eauto|].
      rewrite accumulate_total. unfold gram, product, transposed in GP. cbn [determinant total Nat.even] in GP. lra.
Qed.

Lemma jacobian_determinant_ok gdim tdim J : dims gdim tdim ->
  exists d, compute_jacobian_determinant gdim tdim J = Some d /\
    (gdim = tdim -> d = determinant tdim J) /\ (gdim <> tdim -> (0 <= d)%R) /\
    (d * d = determinant tdim (gram gdim J))%R /\ (d <> 0%R <-> independent gdim tdim J).
Proof.
  intros Hd. pose proof Hd as (Ht & Hg). unfold compute_jacobian_determinant. destruct (Nat.eqb_spec gdim tdim) as [->|N].
  - rewrite det_ok by lia. eexists. split; [reflexivity|]. split; [reflexivity|]. split; [congruence|]. split.
    + destruct tdim as [|[|[|[|tdim]]]]; try lia; unfold gram, product, transposed; cbn [determinant total Nat.even]; unfold minor; cbn [Nat.ltb Nat.leb]; ring.
    + split; [|apply independent_det; lia]. intro D. destruct (inv_some tdim J ltac:(lia) D) as (K & EK). apply inv_ok in EK as (_ & HL & _).
      exact (left_inverse_independent _ _ _ _ HL).
  - rewrite det_ok by lia. cbn [obind]. rewrite (det_ext tdim _ (gram gdim J)) by (intros i j _ _; exact (gram_ext gdim tdim J i j)).
    eexists. split; [reflexivity|]. split; [congruence|]. split; [intros _; apply sqrt_pos|].
    assert (NN : (0 <= determinant tdim (gram gdim J))%R).
    { assert (T : tdim = 1 \/ tdim = 2 /\ gdim = 3) by lia. destruct T as [->|(-> & ->)]; unfold gram, product, transposed; cbn [determinant total Nat.even].
      - assert (0 <= total gdim (fun k => J k 0%nat * J k 0%nat))%R by (apply total_nonneg; intros; apply Rle_0_sqr). lra.
      - unfold minor. cbn [Nat.ltb Nat.leb].
        match goal with |- (0 <= ?e)%R => replace e with (Rsqr (J 0%nat 0%nat * J 1%nat 1%nat - J 0%nat 1%nat * J 1%nat 0%nat) + Rsqr (J 0%nat 0%nat * J 2%nat 1%nat - J 0%nat 1%nat * J 2%nat 0%nat) + Rsqr (J 1%nat 0%nat * J 2%nat 1%nat - J 1%nat 1%nat * J 2%nat 0%nat))%R by (unfold Rsqr; ring) end.
        pose proof (Rle_0_sqr (J 0%nat 0%nat * J 1%nat 1%nat - J 0%nat 1%nat * J 1%nat 0%nat)%R). pose proof (Rle_0_sqr (J 0%nat 0%nat * J 2%nat 1%nat - J 0%nat 1%nat * J 2%nat 0%nat)%R). pose proof (Rle_0_sqr (J 1%nat 0%nat * J 2%nat 1%nat - J 1%nat 1%nat * J 2%nat 0%nat)%R). lra. }
    split; [apply sqrt_sqrt, NN|]. split.
    + intro D. destruct (Req_dec (determinant tdim (gram gdim J)) 0) as [E|E]; [rewrite E, sqrt_0 in D; congruence|].
      assert (EK : exists K, compute_jacobian_inverse gdim tdim J = Some K).
      { unfold compute_jacobian_inverse. rewrite (proj2 (Nat.eqb_neq gdim tdim) N). unfold pinv. rewrite (proj2 (Nat.leb_gt gdim tdim)) by lia.
        destruct (Nat.eqb_spec tdim 2) as [->|N2].
        - assert (gdim = 3) by lia. subst gdim. cbn [Nat.eqb].
          destruct (inv_some 2 (dot 3 (fun i j => J j i) J zeros)) as (Iv & ->); [lia| |cbn [obind]; eauto].
          rewrite (det_ext 2 _ (gram 3 J)) by (intros i j _ _; exact (gram_ext 3 2 J i j)). exact E.
        - assert (tdim = 1) by lia. subst tdim. cbn [Nat.eqb]. rewrite quotient_ok; [cbn [obind]; eauto|].
          rewrite accumulate_total. unfold gram, product, transposed in E. cbn [determinant total Nat.even] in E. lra. }
      destruct EK as (K & EK). apply inverse_ok in EK as (HL & _). exact (left_inverse_independent _ _ _ _ HL).
    + intro HI. pose proof (gram_det_pos gdim tdim J Hd HI) as P. apply sqrt_lt_R0 in P. lra.
Qed.

Lemma inverse_statement gdim tdim J : dims gdim tdim -> independent gdim tdim J ->
  exists K, compute_jacobian_inverse gdim tdim J = Some K /\
    (forall i j, i < tdim -> j < tdim -> product gdim K J i j = identity i j) /\
    (gdim = tdim -> forall i j, i < gdim -> j < gdim -> product tdim J K i j = identity i j) /\
    (forall i j, i < tdim -> j < gdim -> product tdim (gram gdim J) K i j = J j i).
Proof. intros Hd HI. destruct (inverse_some gdim tdim J Hd HI) as (K & EK). exists K. split; [exact EK|]. exact (inverse_ok _ _ _ _ EK). Qed.

(** ** Affine cells *)
Lemma jacobian_edges tdim geometry i j : j < tdim -> compute_jacobian (tdim + 1) p1_dphi geometry i j = edges geometry i j.
Proof.
  intro Hj. unfold compute_jacobian, dot_transposed, zeros. rewrite accumulate_total, Nat.add_1_r, total_first. cbn [p1_dphi].
  rewrite (total_ext tdim _ (fun k => identity j k * geometry (S k) i)%R).
  2:{ intros k Hk. unfold identity. rewrite (Nat.eqb_sym k j). ring. }
  rewrite (total_pick tdim j (fun k => geometry (S k) i)) by exact Hj. unfold edges. ring.
Qed.
Lemma push_point tdim geometry X p i : cell_push_forward tdim geometry X p i = simplex_point tdim geometry (X p) i.
Proof.
  unfold cell_push_forward, push_forward, dot, zeros. rewrite accumulate_total, Nat.add_1_r, total_first. cbn [p1_phi].
  rewrite accumulate_total. unfold simplex_point, edges.
  rewrite (total_ext tdim (fun j => (geometry (S j) i - geometry 0%nat i) * X p j)%R (fun k => X p k * geometry (S k) i + (- geometry 0%nat i) * X p k)%R) by (intros; ring).
  rewrite total_plus, total_scale. ring.
Qed.
Lemma independent_ext m n A B : (forall i j, i < m -> j < n -> A i j = B i j) -> independent m n A -> independent m n B.
Proof. intros E HI c Hc. apply HI. intros i Hi. rewrite <- (Hc i Hi). apply total_ext. intros j Hj. rewrite E by assumption. reflexivity. Qed.

(** Applying a left inverse *)
Lemma apply_inverse m n A K c j : (forall i j, i < n -> j < n -> product m K A i j = identity i j) -> j < n ->
  total m (fun i => K j i * total n (fun k => A i k * c k))%R = c j.
Proof.
  intros HK Hj. rewrite (total_ext m _ (fun i => total n (fun k => K j i * A i k * c k)%R)).
  2:{ intros i Hi. rewrite <- total_scale. apply total_ext. intros; ring. }
  rewrite total_swap. rewrite <- (total_pick n j c Hj). apply total_ext. intros k Hk. rewrite <- HK by assumption. unfold product.
  rewrite Rmult_comm, <- total_scale. apply total_ext. intros; ring.
Qed.
(** The residual is orthogonal to the columns. *)
Lemma residual_orthogonal m n A K y i : (forall i j, i < n -> j < m -> product n (gram m A) K i j = A j i) -> i < n ->
  total m (fun l => A l i * (y l - total n (fun k => A l k * total m (fun j => K k j * y j))))%R = 0%R.
Proof.
  intros HG Hi.
  assert (E : total m (fun l => A l i * total n (fun k => A l k * total m (fun j => K k j * y j)))%R = total m (fun j => A j i * y j)%R).
  { rewrite (total_ext m _ (fun l => total n (fun k => (A l i * A l k) * total m (fun j => K k j * y j))%R)).
    2:{ intros l Hl. rewrite <- total_scale. apply total_ext. intros; ring. }
    rewrite total_swap.
    rewrite (total_ext n _ (fun k => total m (fun j => gram m A i k * K k j * y j)%R)).
    2:{ intros k Hk. unfold gram, product, transposed.
        rewrite (total_ext m _ (fun l => total m (fun j => K k j * y j) * (A l i * A l k))%R) by (intros; ring).
        rewrite total_scale, Rmult_comm, <- total_scale. apply total_ext. intros; ring. }
    rewrite total_swap. apply total_ext. intros j Hj. rewrite <- HG by assumption. unfold product.
    rewrite Rmult_comm, <- total_scale. apply total_ext. intros; ring. }
  rewrite (total_ext m _ (fun l => A l i * y l + (-1) * (A l i * total n (fun k => A l k * total m (fun j => K k j * y j))))%R) by (intros; ring).
  rewrite total_plus, total_scale, E. ring.
Qed.
(** So nothing is closer. *)
Lemma closest m n A K y c : (forall i j, i < n -> j < m -> product n (gram m A) K i j = A j i) ->
  (total m (fun l => (y l - total n (fun k => A l k * total m (fun j => K k j * y j))) * (y l - total n (fun k => A l k * total m (fun j => K k j * y j))))
   <= total m (fun l => (y l - total n (fun k => A l k * c k)) * (y l - total n (fun k => A l k * c k))))%R.
Proof.
  intro HG. set (z := fun k => total m (fun j => (K k j * y j)%R)). set (r := fun l => (y l - total n (fun k => A l k * z k))%R).
  set (d := fun l => total n (fun k => A l k * (z k - c k))%R).
  assert (Ed : forall l, (y l - total n (fun k => A l k * c k) = r l + d l)%R).
  { intro l. unfold r, d. rewrite (total_ext n (fun k => A l k * (z k - c k))%R (fun k => A l k * z k + (-1) * (A l k * c k))%R) by (intros; ring).
    rewrite total_plus, total_scale. ring. }
  rewrite (total_ext m (fun l => (y l - total n (fun k => A l k * c k)) * (y l - total n (fun k => A l k * c k)))%R (fun l => r l * r l + (2 * (r l * d l) + d l * d l))%R).
  2:{ intros l Hl. rewrite Ed. ring. }
  rewrite total_plus, total_plus, total_scale.
  assert (E : total m (fun l => r l * d l)%R = 0%R).
  { rewrite (total_ext m _ (fun l => total n (fun k => (z k - c k) * (A l k * r l))%R)).
    2:{ intros l Hl. unfold d. rewrite <- total_scale. apply total_ext. intros; ring. }
    rewrite total_swap. rewrite (total_ext n _ (fun _ => 0%R)); [apply total_zero|]. intros k Hk. rewrite total_scale.
    unfold r, z. rewrite (residual_orthogonal m n A K y k HG Hk). ring. }
  rewrite E. pose proof (total_nonneg m (fun l => d l * d l)%R ltac:(intros; apply Rle_0_sqr)). unfold r, z. lra.
Qed.

Lemma affine_ok gdim tdim geometry x : dims gdim tdim -> independent gdim tdim (edges geometry) ->
  exists X, cell_pull_back gdim tdim geometry x = Some X /\
    (forall p Y, (forall i, i < gdim -> x p i = simplex_point tdim geometry Y i) -> forall i, i < tdim -> X p i = Y i) /\
    (gdim = tdim -> forall p i, i < gdim -> cell_push_forward tdim geometry X p i = x p i) /\
    (forall p Y, (distance2 gdim (x p) (simplex_point tdim geometry (X p)) <= distance2 gdim (x p) (simplex_point tdim geometry Y))%R).
Proof.
  intros Hd HI. set (J := compute_jacobian (tdim + 1) p1_dphi geometry).
  assert (EJ : forall i j, j < tdim -> J i j = edges geometry i j) by (intros; apply jacobian_edges; assumption).
  assert (HJ : independent gdim tdim J) by (apply (independent_ext _ _ (edges geometry)); [intros; symmetry; apply EJ; assumption|exact HI]).
  destruct (inverse_some gdim tdim J Hd HJ) as (K & EK). unfold cell_pull_back. fold J. rewrite EK. cbn [obind].
  destruct (inverse_ok gdim tdim J K EK) as (HL & HR & HG).
  eexists. split; [reflexivity|].
  assert (EX : forall p i, pull_back_affine gdim K (geometry 0%nat) x p i = total gdim (fun j => K i j * (x p j - geometry 0%nat j))%R).
  { intros p i. unfold pull_back_affine. rewrite accumulate_total. ring. }
  assert (ES : forall Y l, simplex_point tdim geometry Y l = (geometry 0%nat l + total tdim (fun j => J l j * Y j))%R).
  { intros Y l. unfold simplex_point. f_equal. apply total_ext. intros j Hj. rewrite EJ by exact Hj. reflexivity. }
  split; [|split].
  - intros p Y HY i Hi. rewrite EX. rewrite (total_ext gdim _ (fun j => K i j * total tdim (fun k => J j k * Y k))%R).
    2:{ intros j Hj. rewrite HY, ES by exact Hj. ring. }
    exact (apply_inverse gdim tdim J K Y i HL Hi).
  - intros E p i Hi. rewrite push_point, ES. rewrite (total_ext tdim _ (fun j => J i j * total gdim (fun k => K j k * (x p k - geometry 0%nat k)))%R) by (intros; rewrite EX; reflexivity).
    rewrite (apply_inverse tdim gdim K J (fun k => x p k - geometry 0%nat k)%R i (HR E) Hi). ring.
  - intros p Y. unfold distance2.
    rewrite (total_ext gdim _ (fun l => ((x p l - geometry 0%nat l) - total tdim (fun k => J l k * total gdim (fun j => K k j * (x p j - geometry 0%nat j))))
       * ((x p l - geometry 0%nat l) - total tdim (fun k => J l k * total gdim (fun j => K k j * (x p j - geometry 0%nat j)))))%R).
    2:{ intros l Hl. rewrite ES. rewrite (total_ext tdim (fun j => J l j * pull_back_affine gdim K (geometry 0%nat) x p j)%R (fun k => J l k * total gdim (fun j => K k j * (x p j - geometry 0%nat j)))%R) by (intros; rewrite EX; reflexivity). ring. }
    rewrite (total_ext gdim (fun i => (x p i - simplex_point tdim geometry Y i) * (x p i - simplex_point tdim geometry Y i))%R
      (fun l => ((x p l - geometry 0%nat l) - total tdim (fun k => J l k * Y k)) * ((x p l - geometry 0%nat l) - total tdim (fun k => J l k * Y k)))%R) by (intros; rewrite ES; ring).
    exact (closest gdim tdim J K (fun l => x p l - geometry 0%nat l)%R Y HG).
Qed.

(** ** Newton's method *)
Section Newton.
Variables (gdim tdim nodes : nat) (tabulate : (nat -> R) -> (nat -> R) * mat) (geometry : mat) (tol : R).
Let phi (X : nat -> R) : nat -> R := fst (tabulate X).
Let jac (X : nat -> R) : mat := fun i j => total nodes (fun k => (geometry k i * snd (tabulate X) j k)%R).
Lemma step_ok x X : step gdim tdim nodes tabulate geometry x X =
  (K <- compute_jacobian_inverse gdim tdim (compute_jacobian nodes (snd (tabulate X)) geometry) ;;
   Some (fun i => accumulate gdim (fun j => (K i j * (x j - accumulate nodes (fun i => (geometry i j * phi X i)%R) 0%R))%R) 0%R)).
Proof. unfold step, phi. destruct (tabulate X). reflexivity. Qed.
Lemma jac_ok X i j : compute_jacobian nodes (snd (tabulate X)) geometry i j = jac X i j.
Proof. unfold compute_jacobian, dot_transposed, zeros, jac. rewrite accumulate_total. ring. Qed.
Lemma xk_ok X j : accumulate nodes (fun i => (geometry i j * phi X i)%R) 0%R = cell_point nodes geometry phi X j.
Proof. rewrite accumulate_total, Rplus_0_l. unfold cell_point. apply total_ext. intros; ring. Qed.

(** Whenever it ends, the last step was short and solved the linearised equation. *)
Lemma newton_last maxit x X0 X : gdim = tdim -> newton gdim tdim nodes tabulate geometry tol maxit x X0 = Some X ->
  exists Y, (sqrt (distance2 tdim X Y) < tol)%R /\
    forall i, i < gdim -> x i = (cell_point nodes geometry phi Y i + total tdim (fun j => jac Y i j * (X j - Y j)))%R.
Proof.
  intro E. revert X0. induction maxit as [|m IH]; intros X0; [discriminate|]. cbn [newton]. rewrite step_ok.
  destruct (compute_jacobian_inverse _ _ _) as [K|] eqn:EK; cbn [obind]; [|discriminate].
  destruct (Rlt_dec _ tol) as [L|_]; [|apply IH]. intro H. injection H as <-. exists X0.
  destruct (inverse_ok _ _ _ _ EK) as (_ & HR & _). split.
  - rewrite accumulate_total, Rplus_0_l in L. unfold distance2.
    erewrite total_ext; [exact L|]. intros k Hk. cbv beta. ring.
  - intros i Hi.
    rewrite (total_ext tdim _ (fun j => compute_jacobian nodes (snd (tabulate X0)) geometry i j * total gdim (fun k => K j k * (x k - cell_point nodes geometry phi X0 k)))%R).
    2:{ intros j Hj. rewrite jac_ok, accumulate_total.
        rewrite (total_ext gdim (fun j0 => K j j0 * (x j0 - accumulate nodes (fun i0 => geometry i0 j0 * phi X0 i0) 0))%R (fun k => K j k * (x k - cell_point nodes geometry phi X0 k))%R) by (intros; rewrite xk_ok; reflexivity). ring. }
    rewrite (apply_inverse tdim gdim K _ (fun k => x k - cell_point nodes geometry phi X0 k)%R i (HR E) Hi). ring.
Qed.

(** If the map is close to its linearisation, the result is mapped close to the point. *)
Lemma newton_close maxit x X0 X L : gdim = tdim -> (0 <= L)%R ->
  (forall Y Z i, i < gdim -> (Rabs (cell_point nodes geometry phi Z i - cell_point nodes geometry phi Y i - total tdim (fun j => jac Y i j * (Z j - Y j))) <= L * distance2 tdim Z Y)%R) ->
  newton gdim tdim nodes tabulate geometry tol maxit x X0 = Some X ->
  forall i, i < gdim -> (Rabs (cell_point nodes geometry phi X i - x i) <= L * (tol * tol))%R.
Proof.
  intros E HL HC H i Hi. destruct (newton_last maxit x X0 X E H) as (Y & Hs & Hx). rewrite (Hx i Hi).
  assert (D : (0 <= distance2 tdim X Y)%R) by (apply total_nonneg; intros; apply Rle_0_sqr).
  assert (B : (distance2 tdim X Y <= tol * tol)%R).
  { rewrite <- (sqrt_sqrt _ D). pose proof (sqrt_pos (distance2 tdim X Y)). apply Rmult_le_compat; lra. }
  eapply Rle_trans; [|apply Rmult_le_compat_l; [exact HL|exact B]].
  eapply Rle_trans; [|exact (HC Y X i Hi)]. right. f_equal. ring.
Qed.

Lemma nonaffine_close maxit xs Xs L : gdim = tdim -> (0 <= L)%R ->
  (forall Y Z i, i < gdim -> (Rabs (cell_point nodes geometry phi Z i - cell_point nodes geometry phi Y i - total tdim (fun j => jac Y i j * (Z j - Y j))) <= L * distance2 tdim Z Y)%R) ->
  pull_back_nonaffine gdim tdim nodes tabulate geometry tol maxit xs = Some Xs ->
  Forall2 (fun x X => forall i, i < gdim -> (Rabs (cell_point nodes geometry phi X i - x i) <= L * (tol * tol))%R) xs Xs.
Proof.
  intros E HL HC. unfold pull_back_nonaffine. revert Xs. induction xs as [|x xs IH]; intros Xs H.
  - cbn in H. injection H as <-. constructor.
  - cbn [omap] in H. destruct (newton _ _ _ _ _ _ _ _ _) as [X|] eqn:EX; cbn [obind] in H; [|discriminate].
    destruct (omap _ xs) as [Xs'|]; cbn [obind] in H; [|discriminate]. injection H as <-. constructor; [|apply IH; reflexivity].
    exact (newton_close maxit x _ X L E HL HC EX).
Qed.

(** On cells with an affine map two iterations are enough, and the result is exact. *)
Variables (x0 : nat -> R) (J : mat).
Hypothesis Hd : dims gdim tdim.
Hypothesis HJ : independent gdim tdim J.
Hypothesis Hmap : forall X i, i < gdim -> cell_point nodes geometry phi X i = (x0 i + total tdim (fun j => J i j * X j))%R.
Hypothesis Hjac : forall X i j, i < gdim -> j < tdim -> jac X i j = J i j.
Hypothesis Htol : (0 < tol)%R.
Lemma affine_step x Y X : (forall i, i < gdim -> x i = (x0 i + total tdim (fun j => J i j * Y j))%R) ->
  exists dX, step gdim tdim nodes tabulate geometry x X = Some dX /\ forall i, i < tdim -> (dX i + X i = Y i)%R.
Proof.
  intros HY. rewrite step_ok. set (Jc := compute_jacobian nodes (snd (tabulate X)) geometry).
  assert (EJ : forall i j, i < gdim -> j < tdim -> Jc i j = J i j) by (intros; unfold Jc; rewrite jac_ok; apply Hjac; assumption).
  destruct (inverse_some gdim tdim Jc Hd) as (K & EK). { apply (independent_ext _ _ J); [intros; symmetry; apply EJ; assumption|exact HJ]. }
  rewrite EK. cbn [obind]. eexists. split; [reflexivity|]. intros i Hi. cbv beta. destruct (inverse_ok _ _ _ _ EK) as (HL & _).
  rewrite accumulate_total.
  rewrite (total_ext gdim _ (fun j => K i j * total tdim (fun k => Jc j k * (Y k - X k)))%R).
  2:{ intros j Hj. rewrite xk_ok, Hmap, HY by exact Hj. f_equal.
      rewrite (total_ext tdim (fun k => Jc j k * (Y k - X k))%R (fun k => J j k * Y k + (-1) * (J j k * X k))%R) by (intros k Hk; rewrite EJ by assumption; ring).
      rewrite total_plus, total_scale. ring. }
  rewrite (apply_inverse gdim tdim Jc K (fun k => Y k - X k)%R i HL Hi). ring.
Qed.
Lemma newton_affine maxit x X0 Y : 2 <= maxit -> (forall i, i < gdim -> x i = cell_point nodes geometry phi Y i) ->
  exists X, newton gdim tdim nodes tabulate geometry tol maxit x X0 = Some X /\ forall i, i < tdim -> X i = Y i.
Proof.
  intros Hm HY. assert (HY' : forall i, i < gdim -> x i = (x0 i + total tdim (fun j => J i j * Y j))%R) by (intros; rewrite HY, Hmap by assumption; reflexivity).
  destruct maxit as [|[|m]]; try lia. cbn [newton].
  destruct (affine_step x Y X0 HY') as (dX & -> & E1). cbn [obind]. destruct (Rlt_dec _ tol) as [_|_]; [exists (fun i => dX i + X0 i)%R; auto|].
  destruct (affine_step x Y (fun i => dX i + X0 i)%R HY') as (dX' & -> & E2). cbn [obind].
  destruct (Rlt_dec _ tol) as [_|N]; [eexists; split; [reflexivity|exact E2]|]. exfalso. apply N.
  assert (Z : forall i, i < tdim -> dX' i = 0%R). { intros i Hi. pose proof (E1 i Hi). pose proof (E2 i Hi). cbv beta in *. lra. }
  rewrite accumulate_total, (total_ext tdim _ (fun _ => 0%R)) by (intros i Hi; rewrite Z by exact Hi; ring). rewrite total_zero, Rplus_0_l, sqrt_0. exact Htol.
Qed.
Lemma nonaffine_exact maxit xs Ys : 2 <= maxit -> Forall2 (fun x Y => forall i, i < gdim -> x i = cell_point nodes geometry phi Y i) xs Ys ->
  exists Xs, pull_back_nonaffine gdim tdim nodes tabulate geometry tol maxit xs = Some Xs /\ Forall2 (fun X Y => forall i, i < tdim -> X i = Y i) Xs Ys.
Proof.
  intros Hm H. unfold pull_back_nonaffine. induction H as [|x Y xs Ys Hx _ (Xs & IH & HF)]; [exists []; auto|].
  destruct (newton_affine maxit x (fun _ => 0%R) Y Hm Hx) as (X & EX & HX). exists (X :: Xs). cbn [omap]. rewrite EX. cbn [obind]. rewrite IH. cbn [obind]. auto.
Qed.
End Newton.

(** ** The working array *)
Lemma scratch_ok gdim tdim nodes :
  parts_ok (pull_back_working_size false gdim tdim nodes) (scratch_nonaffine gdim tdim nodes) /\
  parts_ok (pull_back_working_size true gdim tdim nodes) (scratch_affine gdim tdim nodes).
Proof.
  unfold parts_ok, scratch_nonaffine, scratch_affine, pull_back_working_size. split; split.
  - intros q Hq. cbn [In] in Hq. repeat (destruct Hq as [<-|Hq]); try contradiction; cbn [fst snd]; nia.
  - repeat (constructor; [repeat (constructor; [cbn [fst snd]; nia|]); constructor|]). constructor.
  - intros q Hq. cbn [In] in Hq. repeat (destruct Hq as [<-|Hq]); try contradiction; cbn [fst snd]; nia.
  - repeat (constructor; [repeat (constructor; [cbn [fst snd]; nia|]); constructor|]). constructor.
Qed.
