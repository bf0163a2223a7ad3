From Coq Require Import Field Reals.
From Verif Require Import Base BaseProofs Algo World IndexMap IndexMapSpec VectorOps VectorSpec VectorOpsProofs.
Open Scope nat_scope.

Lemma combine_app {A B} (a : list A) : forall (c : list B) b d, length a = length c -> combine (a ++ b) (c ++ d) = combine a c ++ combine b d.
Proof. induction a as [|x t IH]; intros [|y u] b d E; cbn in *; try discriminate; [reflexivity|]. f_equal. apply IH. lia. Qed.

Section Ortho.
Variables (T : Type) (zero one : T) (add mul sub : T -> T -> T) (opp : T -> T) (div : T -> T -> T) (inv : T -> T).
Hypothesis Fth : field_theory zero one add mul sub opp div inv eq.
Add Field Tfield : Fth.
Let Rth := F_R Fth.
Variables (sqrt : T -> T) (small : T -> bool).
Variable P : nat.
Notation vec := (vec T).
Notation tsum := (tsum T zero add).
Notation id := (fun x : T => x).
Notation inner := (inner_product T zero add mul id P).
Notation dt := (dot T zero add mul id).
Notation gv := (global_vec P).
Notation "x +' y" := (add x y) (at level 50, left associativity).
Notation "x *' y" := (mul x y) (at level 40, left associativity).
Notation "x -' y" := (sub x y) (at level 50, left associativity).
Hypothesis Hsqrt : forall v : list T, mul (sqrt (dt v v)) (sqrt (dt v v)) = dt v v.
Hypothesis Hsmall : small zero = true.

Lemma alike_refl (a : vec) : alike P a a.
Proof. split; auto. Qed.
Lemma alike_sym (a b : vec) : alike P a b -> alike P b a.
Proof. intros (H1 & H2 & H3). split; [auto|split; intros; symmetry; auto]. Qed.
Lemma alike_trans (a b c : vec) : alike P a b -> alike P b c -> alike P a c.
Proof. intros (H1 & H2 & H3) (K1 & K2 & K3). split; [congruence|split; intros; [rewrite H2, K2|rewrite H3, K3]; auto]. Qed.
Lemma alike_local (a b : vec) r : alike P a b -> r < P -> local_size T a r = local_size T b r.
Proof. intros (H1 & H2 & H3) Hr. unfold local_size. now rewrite H1, H2. Qed.
Lemma alike_sized (a b : vec) : alike P a b -> sized P a -> sized P b.
Proof. intros H Hs r Hr. rewrite <- (alike_local a b r H Hr). destruct H as (H1 & H2 & H3). rewrite <- H3 by exact Hr. auto. Qed.

Lemma inner_dot (a b : vec) : alike P a b -> sized P a -> inner a b = Some (dt (gv a) (gv b)).
Proof.
  intros H Hs. eapply inner_ok; [exact Rth|exact Hs|eapply alike_sized; eauto|]. intros r Hr. now apply alike_local.
Qed.

Lemma gv_length (a b : vec) : alike P a b -> sized P a -> length (gv a) = length (gv b).
Proof.
  intros H Hs. unfold global_vec.
  assert (E : forall l, (forall r, In r l -> r < P) -> length (concat (map (fun q => firstn (local_size T a q) (v_x T a q)) l)) =
    length (concat (map (fun q => firstn (local_size T b q) (v_x T b q)) l))).
  { induction l as [|q t IH]; intro Hl; [reflexivity|]. cbn [map concat]. rewrite !app_length, IH by (intros; apply Hl; now right).
    rewrite !firstn_length, (alike_local a b q H), (proj2 (proj2 H) q) by (apply Hl; now left). reflexivity. }
  apply E. intros r Hr. apply in_seq in Hr. lia.
Qed.

Definition lin (c : T) (v u : list T) : list T := map (fun p => snd p -' c *' fst p) (combine v u).

Lemma combine_firstn' {A B} n (a : list A) (b : list B) : combine (firstn n a) (firstn n b) = firstn n (combine a b).
Proof. symmetry. apply combine_firstn. Qed.

Lemma axpy_gv c (bj bi : vec) : alike P bj bi -> sized P bi -> gv (axpy T sub mul c bj bi) = lin c (gv bj) (gv bi).
Proof.
  intros H Hs. unfold lin, global_vec. rewrite combine_concat.
  - rewrite concat_map, map_map. f_equal. apply map_ext_in. intros r Hr. apply in_seq in Hr.
    unfold axpy, local_size at 1. cbn [v_map v_bs v_x]. fold (local_size T bi r).
    rewrite (alike_local bj bi r H) by lia. rewrite combine_firstn', firstn_app, map_length, combine_length.
    pose proof (proj2 (proj2 H) r ltac:(lia)) as E. rewrite E, Nat.min_id. rewrite (skipn_all (v_x T bi r)), firstn_nil, app_nil_r.
    apply firstn_map.
  - intros r Hr. apply in_seq in Hr. rewrite !firstn_length, (alike_local bj bi r H), (proj2 (proj2 H) r) by lia. reflexivity.
Qed.

Lemma axpy_alike c (bj bi : vec) : alike P bj bi -> alike P (axpy T sub mul c bj bi) bi.
Proof.
  intros H. split; [reflexivity|split; [reflexivity|]]. intros r Hr. cbn [v_x axpy].
  rewrite app_length, map_length, combine_length, skipn_length, (proj2 (proj2 H) r Hr). lia.
Qed.

(** Algebra of [dt] on lists of equal length. *)
Lemma dt_nil_l b : dt [] b = zero. Proof. reflexivity. Qed.
Lemma dt_cons a x b y : dt (a :: x) (b :: y) = a *' b +' dt x y.
Proof. reflexivity. Qed.
Lemma dt_comm a b : dt a b = dt b a.
Proof. revert b; induction a as [|x t IH]; intros [|y u]; try reflexivity. rewrite !dt_cons, IH. ring. Qed.
Lemma dt_lin c v u w : length v = length u -> dt (lin c v u) w = dt u w -' c *' dt v w.
Proof.
  revert u w; induction v as [|x t IH]; intros [|y u] w E; cbn in E; try discriminate.
  - unfold lin; cbn [combine map]. rewrite !dt_nil_l. ring.
  - destruct w as [|z w].
    + rewrite !(dt_comm _ []), !dt_nil_l. ring.
    + change (lin c (x :: t) (y :: u)) with ((y -' c *' x) :: lin c t u). rewrite !dt_cons, IH by lia. ring.
Qed.
Lemma dt_scale n v w : n <> zero -> dt (map (fun x => div x n) v) w = div (dt v w) n.
Proof.
  intro Hn. revert w; induction v as [|x t IH]; intros w; cbn [map].
  - rewrite !dt_nil_l. field. exact Hn.
  - destruct w as [|z w].
    + rewrite !(dt_comm _ []), !dt_nil_l. field. exact Hn.
    + rewrite !dt_cons, IH. field. exact Hn.
Qed.

(** [v] is the combination of [prev] with coefficients [cs], plus [u]. *)
Definition comb (cs : list T) (prev : list vec) (u : list T) (p : nat) : T :=
  tsum (map (fun cv => fst cv *' nth p (gv (snd cv)) zero) (combine cs prev)) +' nth p u zero.

Lemma lin_nth c v u p : length v = length u -> nth p (lin c v u) zero = nth p u zero -' c *' nth p v zero.
Proof.
  revert u p; induction v as [|x t IH]; intros [|y u] p E; cbn in E; try discriminate.
  - destruct p; cbn; ring.
  - destruct p as [|p]; [reflexivity|]. change (lin c (x :: t) (y :: u)) with ((y -' c *' x) :: lin c t u). cbn [nth]. apply IH. lia.
Qed.

Definition orthonormal (l : list vec) : Prop :=
  forall i j a b, nth_error l i = Some a -> nth_error l j = Some b ->
    dt (gv a) (gv b) = if i =? j then one else zero.

Lemma loop_ok prev b : sized P b -> (forall v, In v prev -> alike P v b) -> orthonormal prev ->
  forall done todo b0, prev = done ++ todo -> alike P b0 b ->
    (forall v, In v done -> dt (gv b0) (gv v) = zero) ->
    (exists cs, length cs = length done /\ forall p, nth p (gv b) zero = comb cs done (gv b0) p) ->
    exists b', ofold (fun bi bj => dot_ij <- inner bi bj ;; Some (axpy T sub mul dot_ij bj bi)) todo b0 = Some b' /\
      alike P b' b /\ (forall v, In v prev -> dt (gv b') (gv v) = zero) /\
      exists cs, length cs = length prev /\ forall p, nth p (gv b) zero = comb cs prev (gv b') p.
Proof.
  intros Hs Hal Hon done todo. revert done. induction todo as [|bj todo IH]; intros done b0 Ep Hb0 Hz (cs & Hcs & Hc).
  - rewrite app_nil_r in Ep. subst done. exists b0. cbn. eauto 8.
  - assert (Hbj : alike P bj b) by (apply Hal; rewrite Ep, in_app_iff; right; now left).
    assert (Hs0 : sized P b0) by (eapply alike_sized; [apply alike_sym, Hb0|exact Hs]).
    assert (H0j : alike P b0 bj) by (eapply alike_trans; [exact Hb0|apply alike_sym, Hbj]).
    cbn [ofold]. rewrite (inner_dot b0 bj H0j Hs0). cbn [obind]. set (d := dt (gv b0) (gv bj)).
    assert (Hg : gv (axpy T sub mul d bj b0) = lin d (gv bj) (gv b0)) by (apply axpy_gv; [apply alike_sym, H0j|exact Hs0]).
    assert (Hlen : length (gv bj) = length (gv b0)) by (symmetry; now apply gv_length).
    assert (Hnj : nth_error prev (length done) = Some bj).
    { rewrite Ep, nth_error_app2, Nat.sub_diag by lia. reflexivity. }
    apply (IH (done ++ [bj])).
    + rewrite <- app_assoc. exact Ep.
    + eapply alike_trans; [apply axpy_alike, alike_sym, H0j|exact Hb0].
    + intros v Hv. rewrite Hg, dt_lin by exact Hlen. apply in_app_iff in Hv as [Hv|[<-|[]]].
      * rewrite (Hz v Hv). destruct (In_nth_error _ _ Hv) as (i & Hi). pose proof (nth_error_bound _ _ _ Hi) as Hlt.
        rewrite (Hon (length done) i bj v Hnj) by (rewrite Ep, nth_error_app1; auto).
        destruct (Nat.eqb_spec (length done) i); [lia|]. ring.
      * fold d. rewrite (Hon _ _ _ _ Hnj Hnj), Nat.eqb_refl. ring.
    + exists (cs ++ [d]). split; [now rewrite !app_length, Hcs|]. intro p. rewrite Hc. unfold comb. rewrite Hg, lin_nth by exact Hlen.
      rewrite combine_app by exact Hcs. cbn [combine]. rewrite map_app, (tsum_app T zero one add mul sub opp Rth). cbn [map fst snd].
      rewrite tsum_cons, tsum_nil. ring.
Qed.

Lemma ortho_one_ok prev b b' : sized P b -> (forall v, In v prev -> alike P v b) -> orthonormal prev ->
  ortho_one T zero add sub mul div id sqrt small P prev b = Some b' ->
  alike P b' b /\ orthonormal (prev ++ [b']) /\
  exists cs, length cs = S (length prev) /\ forall p, nth p (gv b) zero = comb cs (prev ++ [b']) [] p.
Proof.
  intros Hs Hal Hon. unfold ortho_one.
  destruct (loop_ok prev b Hs Hal Hon [] prev b eq_refl (alike_refl b)) as (u & -> & Hu & Hz & cs & Hcs & Hc).
  { intros v []. }
  { exists []. split; [reflexivity|]. intro p. unfold comb. cbn [combine map]. rewrite tsum_nil. ring. }
  cbn [obind]. assert (Hsu : sized P u) by (eapply alike_sized; [apply alike_sym, Hu|exact Hs]).
  rewrite (inner_dot u u (alike_refl u) Hsu). cbn [obind]. rewrite Hsqrt. set (n := sqrt (dt (gv u) (gv u))).
  destruct (small (dt (gv u) (gv u))) eqn:Esm; [discriminate|]. intro E. injection E as <-.
  assert (Hn2 : dt (gv u) (gv u) <> zero) by (intro E; rewrite E in Esm; congruence).
  assert (Hn : n <> zero). { intro E. apply Hn2. rewrite <- Hsqrt. fold n. rewrite E. ring. }
  set (w := mkVec T (v_map T u) (v_bs T u) (fun r => map (fun x => div x n) (v_x T u r))).
  assert (Hg : gv w = map (fun x => div x n) (gv u)).
  { unfold global_vec. rewrite concat_map, map_map. f_equal. apply map_ext. intro r. unfold w. cbn [v_x]. unfold local_size. cbn [v_map v_bs].
    apply firstn_map. }
  assert (Hz' : forall v, In v prev -> dt (gv w) (gv v) = zero).
  { intros v Hv. rewrite Hg, dt_scale, Hz by auto. field. exact Hn. }
  split; [|split].
  - destruct Hu as (H1 & H2 & H3). split; [exact H1|split; [exact H2|]]. intros r Hr. cbn. rewrite map_length. auto.
  - intros i j x y Hx Hy.
    assert (Hcase : forall k z, nth_error (prev ++ [w]) k = Some z -> (k < length prev /\ nth_error prev k = Some z) \/ (k = length prev /\ z = w)).
    { intros k z Hk. destruct (Nat.lt_ge_cases k (length prev)) as [L|L].
      - rewrite nth_error_app1 in Hk by exact L. auto.
      - right. rewrite nth_error_app2 in Hk by exact L. destruct (k - length prev) as [|m] eqn:Em; cbn in Hk; [|destruct m; discriminate].
        injection Hk as <-. split; [lia|reflexivity]. }
    destruct (Hcase _ _ Hx) as [(Li & Hi)|(-> & ->)], (Hcase _ _ Hy) as [(Lj & Hj)|(-> & ->)].
    + now apply Hon.
    + destruct (Nat.eqb_spec i (length prev)); [lia|]. rewrite dt_comm. apply Hz'. eapply nth_error_In; eauto.
    + destruct (Nat.eqb_spec (length prev) j); [lia|]. apply Hz'. eapply nth_error_In; eauto.
    + rewrite Nat.eqb_refl, Hg, dt_scale by exact Hn. rewrite dt_comm, dt_scale by exact Hn.
      replace (dt (gv u) (gv u)) with (n *' n) by apply Hsqrt. field. exact Hn.
  - exists (cs ++ [n]). split; [rewrite app_length, Hcs; cbn; lia|]. intro p. rewrite Hc. unfold comb.
    rewrite combine_app by exact Hcs. cbn [combine]. rewrite map_app, (tsum_app T zero one add mul sub opp Rth). cbn [map fst snd].
    rewrite tsum_cons, tsum_nil, Hg.
    assert (En : nth p (gv u) zero = n *' nth p (map (fun x => div x n) (gv u)) zero).
    { destruct (Nat.lt_ge_cases p (length (gv u))) as [L|L].
      - rewrite (nth_indep (map _ _) zero (div zero n)) by (rewrite map_length; exact L).
        rewrite (map_nth (fun x => div x n)). field. exact Hn.
      - rewrite !nth_overflow by (rewrite ?map_length; exact L). ring. }
    rewrite En. destruct p; cbn [nth]; ring.
Qed.

Lemma orthonormalize_app basis acc res :
  ofold (fun acc b => b' <- ortho_one T zero add sub mul div id sqrt small P acc b ;; Some (acc ++ [b'])) basis acc = Some res ->
  forall v0, (forall v, In v (acc ++ basis) -> alike P v v0) -> sized P v0 -> orthonormal acc ->
  orthonormal res /\ length res = length acc + length basis /\ (forall v, In v res -> alike P v v0) /\
  (exists more, res = acc ++ more) /\
  (forall k b, nth_error basis k = Some b -> exists cs, length cs = length acc + S k /\
     forall p, nth p (gv b) zero = comb cs (firstn (length acc + S k) res) [] p).
Proof.
  revert acc. induction basis as [|b t IH]; intros acc E v0 Hal Hs Hon; cbn [ofold] in E.
  - injection E as <-. split; [exact Hon|]. split; [cbn; lia|]. split; [intros v Hv; apply Hal, in_app_iff; now left|].
    split; [exists []; now rewrite app_nil_r|]. intros k b Hb. destruct k; discriminate.
  - destruct (ortho_one T zero add sub mul div id sqrt small P acc b) as [b'|] eqn:E1; [|discriminate]. cbn [obind] in E.
    assert (Hb0 : alike P b v0) by (apply Hal, in_app_iff; right; now left).
    destruct (ortho_one_ok acc b b') as (Hb' & Hon' & Hsp); [| |exact Hon|exact E1|].
    { eapply alike_sized; [apply alike_sym, Hb0|exact Hs]. }
    { intros v Hv. eapply alike_trans; [apply Hal, in_app_iff; now left|apply alike_sym, Hb0]. }
    destruct (IH (acc ++ [b']) E v0) as (H1 & H2 & H3 & (more & H4) & H5); [|exact Hs|exact Hon'|].
    { intros v Hv. rewrite <- app_assoc in Hv. apply in_app_iff in Hv as [Hv|[<-|Hv]].
      - apply Hal, in_app_iff. now left.
      - eapply alike_trans; eauto.
      - apply Hal, in_app_iff. right. now right. }
    split; [exact H1|]. rewrite app_length in H2, H5. cbn [length] in *. split; [lia|]. split; [exact H3|].
    split; [exists (b' :: more); rewrite H4, <- app_assoc; reflexivity|].
    intros [|k] c Hc; cbn in Hc.
    + injection Hc as <-. destruct Hsp as (cs & Hcs & Hp). exists cs. split; [lia|].
      replace (firstn (length acc + 1) res) with (acc ++ [b']); [exact Hp|].
      rewrite H4, firstn_app, app_length. cbn [length]. rewrite Nat.sub_diag. cbn [firstn]. rewrite app_nil_r. symmetry.
      apply firstn_all2. rewrite app_length. cbn. lia.
    + destruct (H5 k c Hc) as (cs & Hcs & Hp). exists cs. replace (length acc + S (S k)) with (length acc + 1 + S k) by lia. auto.
Qed.

Lemma orthonormalize_ok basis res v0 :
  orthonormalize T zero add sub mul div id sqrt small P basis = Some res ->
  (forall v, In v basis -> alike P v v0) -> sized P v0 ->
  length res = length basis /\
  (forall i j a b, nth_error res i = Some a -> nth_error res j = Some b ->
     inner a b = Some (if i =? j then one else zero)) /\
  (forall k b, nth_error basis k = Some b -> exists cs, length cs = S k /\
     forall p, nth p (gv b) zero =
       tsum (map (fun cv => fst cv *' nth p (gv (snd cv)) zero) (combine cs (firstn (S k) res)))).
Proof.
  intros E Hal Hs. destruct (orthonormalize_app basis [] res E v0 Hal Hs) as (H1 & H2 & H3 & _ & H5).
  { intros i j a b Ha. destruct i; discriminate. }
  split; [exact H2|]. split.
  - intros i j a b Ha Hb. rewrite inner_dot; [now rewrite (H1 i j a b)| |].
    + eapply alike_trans; [apply H3; eapply nth_error_In; eauto|]. apply alike_sym, H3. eapply nth_error_In; eauto.
    + eapply alike_sized; [apply alike_sym, H3; eapply nth_error_In; eauto|exact Hs].
  - intros k b Hb. destruct (H5 k b Hb) as (cs & Hcs & Hp). exists cs. split; [exact Hcs|]. intro p. rewrite Hp. unfold comb.
    cbn [length plus]. destruct p; cbn [nth]; ring.
Qed.
End Ortho.

(** ** Real scalars *)
Section Real.
Open Scope R_scope.
Lemma Rdot_nonneg v : 0 <= dot R R0 Rplus Rmult (fun x => x) v v.
Proof.
  unfold dot. induction v as [|x t IH]; [cbn; apply Rle_refl|]. cbn [combine map]. rewrite tsum_cons. cbn [fst snd].
  apply Rplus_le_le_0_compat; [apply Rle_0_sqr|exact IH].
Qed.
Lemma Rdot_sqrt v : sqrt (dot R R0 Rplus Rmult (fun x => x) v v) * sqrt (dot R R0 Rplus Rmult (fun x => x) v v)
  = dot R R0 Rplus Rmult (fun x => x) v v.
Proof. apply sqrt_sqrt, Rdot_nonneg. Qed.

Definition Rsmall (eps x : R) : bool := if Rlt_dec x eps then true else false.
Lemma Rsmall_0 eps : 0 < eps -> Rsmall eps 0 = true.
Proof. intro H. unfold Rsmall. destruct (Rlt_dec 0 eps); [reflexivity|contradiction]. Qed.
End Real.
