(** Proofs about the distributed matrix product. *)
From Coq Require Import Ring.
From Verif Require Import Base BaseProofs BucketProofs Algo AlgoProofs Nbx World WorldProofs IndexMap IndexMapSpec IndexMapProofs ImSharedProofs ScattererProofs RoundTrip
  SubMapProofs SparsityProofs MatrixCSR MatrixSpec MatrixProofs MatrixDense MatrixPar MatrixParSpec MatrixParProofs SpmvProofs VectorOps VectorOpsProofs Collectives MatTrans MatOpsSpec
  TransLocal TransCopy PatternMats MatMul MatMulLocal MatMulComm MatMulSpec.
From Verif Require MultProofs TransProofs.
From Verif Require StackProofs.
Open Scope nat_scope.

Section Calls.
Variables (P : nat) (A1 : nat -> imap).
Hypothesis HP : 0 < P.
Hypothesis HA1 : maps_ok P A1.
Lemma fast_isolated r : r < P -> mm_fast P A1 r = isolated (A1 r).
Proof. intro Hr. unfold mm_fast. destruct (Nat.eqb_spec P 1) as [E|N]; [|reflexivity]. now rewrite (TransProofs.isolated_one P A1 HP HA1 r E Hr). Qed.
Lemma mm_matched_iff : matched P (matmul_calls P A1) = true <-> uniform P A1.
Proof.
  unfold matched. rewrite forallb_forall. split.
  - intro H. destruct (isolated (A1 0)) eqn:E0.
    + left. intros r Hr. apply TransProofs.isolated_iff. specialize (H r ltac:(apply in_seq; lia)). unfold matmul_calls in H. rewrite !fast_isolated, E0 in H by lia.
      destruct (isolated (A1 r)); [reflexivity|]. unfold imap_make_calls in H. destruct (P =? 1); discriminate.
    + right. intros r Hr. specialize (H r ltac:(apply in_seq; lia)). unfold matmul_calls in H. rewrite !fast_isolated, E0 in H by lia.
      destruct (isolated (A1 r)) eqn:E; [unfold imap_make_calls in H; destruct (P =? 1); discriminate|].
      destruct (im_src (A1 r)) as [|] eqn:Es; [|left; discriminate]. destruct (im_dest (A1 r)) eqn:Ed; [|right; discriminate]. assert (isolated (A1 r) = true) by (now apply TransProofs.isolated_iff). congruence.
  - intros Hu r Hr. apply in_seq in Hr. replace (matmul_calls P A1 r) with (matmul_calls P A1 0); [apply TransProofs.colls_eqb_refl|].
    unfold matmul_calls. rewrite !fast_isolated by lia. replace (isolated (A1 r)) with (isolated (A1 0)); [reflexivity|]. destruct Hu as [Hu|Hu].
    + rewrite !(proj2 (TransProofs.isolated_iff _)); auto; apply Hu; lia.
    + assert (G : forall q, q < P -> isolated (A1 q) = false).
      { intros q Hq. destruct (isolated (A1 q)) eqn:E; [|reflexivity]. apply TransProofs.isolated_iff in E. destruct (Hu q Hq); tauto. }
      rewrite !G by lia. reflexivity.
Qed.
End Calls.

Section Mul.
Context {T : Type}.
Variables (zero one : T) (add mul sub : T -> T -> T) (opp : T -> T) (eqb : T -> T -> bool).
Hypothesis Rth : ring_theory zero one add mul sub opp eq.
Add Ring Tr : Rth.
Hypothesis eqb_ok : forall x y, eqb x y = true <-> x = y.
Variables (P : nat) (nbx : (nat -> list nat) -> nat -> list nat).
Variables (A0 A1 B0 B1 : nat -> imap) (matsA matsB : nat -> csr T) (offsA : nat -> list nat).
Hypothesis HP : 0 < P.
Hypothesis Hnbx : nbx_oracle P nbx.
Hypothesis HA0 : maps_ok P A0.
Hypothesis HA1 : maps_ok P A1.
Hypothesis HB0 : maps_ok P B0.
Hypothesis HB1 : maps_ok P B1.
Hypothesis HmA : mats_ok P A0 A1 1 1 matsA.
Hypothesis HmB : mats_ok P B0 B1 1 1 matsB.
Hypothesis Hoff : offs_ok P A0 A1 offsA matsA.
Hypothesis Hsame : same_ranges P B0 A1.
Notation tsum := (VectorOps.tsum T zero add).
Notation CM := (cmap P nbx A1 B0 B1 matsB).
Notation lc := (lc P nbx A1 B0 B1 matsB).
Notation BROW := (BROW zero P B0 B1 matsB).
Notation grow := (grow zero P nbx A1 B0 B1 matsB).
Notation rwA q := (rowsof (matsA q)).
Notation rwB q := (rowsof (matsB q)).
Notation va r i c := (nth (pos (rwA r) i c) (matsA r).(mt_data) zero).
Let cmf := cmap_facts zero P nbx A1 B0 B1 matsB HP Hnbx HA1 HB0 HB1 HmB Hsame.
Lemma CM_ok : maps_ok P CM. Proof. apply cmf. Qed.
Lemma CM_at r : r < P -> mm_col_map P nbx A1 B0 B1 matsB r = Some (CM r) /\ im_lo (CM r) = im_lo (B1 r) /\ im_hi (CM r) = im_hi (B1 r).
Proof. intro Hr. destruct cmf as (_ & H). destruct (H r Hr) as (X & _ & Y & Z). auto. Qed.

Lemma A_rows q : q < P -> mt_cols (matsA q) = concat (rwA q) /\ mt_rp (matsA q) = psums (map (@length nat) (rwA q)) /\
  Forall (StronglySorted lt) (rwA q) /\ length (rwA q) = size_local (A0 q) + num_ghosts (A0 q).
Proof. intro Hq. eapply rows_ok; eauto. Qed.

(** Position [k] of row [i] of A. *)
Lemma A_at r i k : r < P -> i < size_local (A0 r) -> off (rwA r) i <= k < off (rwA r) (S i) -> exists c,
  nth_error (mt_cols (matsA r)) k = Some c /\ nth_error (mt_data (matsA r)) k = Some (va r i c) /\ k = pos (rwA r) i c /\
  In c (R (rwA r) i) /\ nth_error (R (rwA r) i) (k - off (rwA r) i) = Some c /\ c < size_local (A1 r) + num_ghosts (A1 r) /\ local_to_global (A1 r) c = Some (gcol A1 r c).
Proof.
  intros Hr Hi Hk. destruct (A_rows r Hr) as (E1 & E2 & E3 & E4). rewrite off_S in Hk by lia. destruct (nth_error_lt (R (rwA r) i) (k - off (rwA r) i) ltac:(lia)) as (c & Ec).
  assert (Hin : In c (R (rwA r) i)) by (eapply nth_error_In; eauto).
  assert (Ep : k = pos (rwA r) i c). { unfold pos, idx. rewrite (index_in_nth _ _ _ (SS_lt_NoDup _ (R_sorted _ E3 i)) Ec). lia. }
  assert (Eco : nth_error (mt_cols (matsA r)) k = Some c) by (rewrite Ep, E1; now apply pos_nth).
  exists c. split; [exact Eco|]. split.
  { rewrite <- Ep. apply nth_error_nth_some. rewrite (data_ok P A0 A1 1 1 matsA HmA r Hr), !Nat.mul_1_r. rewrite Ep. now apply pos_lt. }
  do 3 (split; [assumption|]). split; [apply (mk_cols _ _ _ _ _ _ HmA r c Hr); eapply nth_error_In; eauto|]. eapply gcol_ok; eauto.
Qed.

Definition D r i := nth i (offsA r) 0.
Lemma D_ok r i : r < P -> i < size_local (A0 r) -> nth_error (offsA r) i = Some (D r i) /\ off (rwA r) i <= D r i <= off (rwA r) (S i) /\
  forall k c, off (rwA r) i <= k < off (rwA r) (S i) -> nth_error (mt_cols (matsA r)) k = Some c -> (k < D r i <-> c < size_local (A1 r)).
Proof.
  intros Hr Hi. destruct (A_rows r Hr) as (E1 & E2 & E3 & E4). destruct (Hoff r Hr) as (Hl & H). destruct (H i Hi) as (a & d & b & Ea & Ed & Eb & Hd & Hc).
  rewrite E2, rp_nth in Ea, Eb by lia. injection Ea as <-. injection Eb as <-. unfold D. rewrite (nth_error_nth _ _ 0 Ed). auto.
Qed.

(** The products for one entry of A. *)
Definition prods r i c : list (nat * T) := map (fun it : T * (nat * nat) => (lc r (fst (snd it)), mul (va r i c) (fst it))) (BROW (gcol A1 r c)).
Definition pk r i k := prods r i (nth k (mt_cols (matsA r)) 0).

Lemma omap_row {X} (f : nat -> option X) (g : nat -> X) s l : (forall t c, nth_error l t = Some c -> f (s + t) = Some (g c)) -> omap f (seq s (length l)) = Some (map g l).
Proof.
  revert s. induction l as [|c l IH]; intros s H; [reflexivity|]. cbn [length seq omap map]. pose proof (H 0 c eq_refl) as E0. rewrite Nat.add_0_r in E0. rewrite E0. cbn [obind].
  rewrite IH; [reflexivity|]. intros t c' Ht. rewrite <- (H (S t) c' Ht). f_equal. lia.
Qed.

Lemma size_BA r : r < P -> size_local (B0 r) = size_local (A1 r) /\ im_lo (B0 r) = im_lo (A1 r).
Proof. intro Hr. destruct (Hsame r Hr) as (E1 & E2). unfold size_local. now rewrite E1, E2. Qed.

Lemma BROW_local r c : r < P -> c < size_local (A1 r) -> BROW (im_lo (A1 r) + c) = BR zero B1 matsB r c.
Proof.
  intros Hr Hc. destruct (size_BA r Hr) as (E1 & E2). unfold MatMulComm.BROW. rewrite (own_ok P B0 HB0 r) by (first [exact Hr|unfold owns; unfold size_local in *; lia]).
  unfold loc. f_equal. lia.
Qed.

Lemma local_ok r i : r < P -> i < size_local (A0 r) ->
  local_items mul B1 matsA matsB offsA r i (map (lc r) (im_ghosts (B1 r))) = Some (concat (map (pk r i) (seq (off (rwA r) i) (D r i - off (rwA r) i)))).
Proof.
  intros Hr Hi. destruct (A_rows r Hr) as (E1 & E2 & E3 & E4). destruct (D_ok r i Hr Hi) as (Ed & Hd & Hc). unfold local_items. rewrite E2, rp_nth by lia. cbn [obind].
  rewrite Ed. cbn [obind]. rewrite omap_map with (g := pk r i); [reflexivity|]. intros k Hk. apply in_seq in Hk. destruct (A_at r i k Hr Hi ltac:(lia)) as (c & X1 & X2 & X3 & X4 & X5 & X6 & X7).
  rewrite X1. cbn [obind]. rewrite X2. cbn [obind]. apply (Hc k c) in X1 as Hcl; [|lia]. assert (c < size_local (A1 r)) as L by (apply Hcl; lia).
  destruct (size_BA r Hr) as (Es & El). destruct (B_rows P B0 B1 matsB HmB r Hr) as (F1 & F2 & F3 & F4).
  rewrite F2, !rp_nth by lia. cbn [obind]. rewrite off_S by lia. replace (off (rwB r) c + length (R (rwB r) c) - off (rwB r) c) with (length (R (rwB r) c)) by lia.
  unfold pk. rewrite (nth_error_nth _ _ 0 X1). unfold prods. rewrite l2g_own in X7 by exact L. injection X7 as <-. rewrite BROW_local by assumption. unfold BR. rewrite map_map. cbn [fst snd].
  apply omap_row. intros t b Ht. destruct (B_at zero P B0 B1 matsB HP HB1 HmB r c t b Hr ltac:(lia) Ht) as (Y1 & Y2 & Y3 & Y4 & Y5 & _).
  rewrite Y1. cbn [obind]. rewrite Y3. cbn [obind].
  destruct (lc_B zero P nbx A1 B0 B1 matsB HP Hnbx HA1 HB0 HB1 HmB Hsame r b _ Hr Y5) as (Z1 & Z2 & Z3). destruct (Nat.ltb_spec b (size_local (B1 r))) as [Lb|Lb].
  - cbn [obind]. now rewrite (Z2 Lb).
  - unfold local_to_global in Y5. destruct (Nat.ltb_spec b (size_local (B1 r))); [lia|]. rewrite nth_error_map_some, Y5. reflexivity.
Qed.

Lemma ghost_ok r i : r < P -> i < size_local (A0 r) ->
  ghost_items mul B0 matsA matsB offsA r i (psums (map (fun g => length (grow r g)) (im_ghosts (A1 r))), (map fst (concat (map (grow r) (im_ghosts (A1 r)))), map snd (concat (map (grow r) (im_ghosts (A1 r))))))
  = Some (concat (map (pk r i) (seq (D r i) (off (rwA r) (S i) - D r i)))).
Proof.
  intros Hr Hi. destruct (A_rows r Hr) as (E1 & E2 & E3 & E4). destruct (D_ok r i Hr Hi) as (Ed & Hd & Hc). unfold ghost_items. rewrite Ed. cbn [obind]. rewrite E2, rp_nth by lia. cbn [obind].
  rewrite omap_map with (g := pk r i); [reflexivity|]. intros k Hk. apply in_seq in Hk. destruct (A_at r i k Hr Hi ltac:(lia)) as (c & X1 & X2 & X3 & X4 & X5 & X6 & X7).
  rewrite X1. cbn [obind]. rewrite X2. cbn [obind]. apply (Hc k c) in X1 as Hcl; [|lia]. assert (size_local (A1 r) <= c) as L by lia.
  destruct (size_BA r Hr) as (Es & El). rewrite Es. destruct (Nat.ltb_spec c (size_local (A1 r))); [lia|].
  unfold local_to_global in X7. destruct (Nat.ltb_spec c (size_local (A1 r))); [lia|]. set (t := c - size_local (A1 r)) in *. set (g := gcol A1 r c) in *.
  rewrite <- (map_map (grow r) (@length _)). set (L0 := map (grow r) (im_ghosts (A1 r))). assert (Et : nth_error L0 t = Some (grow r g)) by (unfold L0; rewrite nth_error_map_some, X7; reflexivity).
  assert (Hlt : t < length L0) by (eapply nth_error_bound; eauto). rewrite !psums_nth by (rewrite map_length; lia). cbn [obind].
  rewrite (lsum_firstn_S _ t (length (grow r g))) by (rewrite nth_error_map_some, Et; reflexivity).
  set (o := lsum (firstn t (map (@length _) L0))). replace (o + length (grow r g) - o) with (length (BROW g)) by (unfold MatMulComm.grow; rewrite map_length; lia).
  unfold pk. rewrite (nth_error_nth _ _ 0 X1). unfold prods. fold g.
  assert (G : forall s0, (forall u it, nth_error (BROW g) u = Some it -> nth_error (concat L0) (s0 + u) = Some (lc r (fst (snd it)), fst it)) ->
     omap (fun kb => k0 <- nth_error (map fst (concat L0)) kb;; bv <- nth_error (map snd (concat L0)) kb;; Some (k0, mul (va r i c) bv)) (seq s0 (length (BROW g)))
     = Some (map (fun it : T * (nat * nat) => (lc r (fst (snd it)), mul (va r i c) (fst it))) (BROW g))).
  { generalize (BROW g) as l. induction l as [|it l IH]; intros s0 Hs0; [reflexivity|]. cbn [length seq omap map]. pose proof (Hs0 0 it eq_refl) as Z. rewrite Nat.add_0_r in Z.
    rewrite !nth_error_map_some, Z. cbn [option_map obind fst snd]. rewrite IH; [reflexivity|]. intros u it' Hu. rewrite <- (Hs0 (S u) it' Hu). f_equal. lia. }
  apply G. intros u it Hu. unfold o. rewrite (nth_error_concat L0 t (grow r g)); [|exact Et|unfold MatMulComm.grow; rewrite map_length; eapply nth_error_bound; eauto].
  unfold MatMulComm.grow. rewrite nth_error_map_some, Hu. reflexivity.
Qed.

(** All products of row [i]. *)
Definition items r i := concat (map (prods r i) (R (rwA r) i)).
Lemma items_ok r i : r < P -> i < size_local (A0 r) ->
  concat (map (pk r i) (seq (off (rwA r) i) (D r i - off (rwA r) i))) ++ concat (map (pk r i) (seq (D r i) (off (rwA r) (S i) - D r i))) = items r i.
Proof.
  intros Hr Hi. destruct (A_rows r Hr) as (E1 & E2 & E3 & E4). destruct (D_ok r i Hr Hi) as (_ & Hd & _). rewrite <- concat_app, <- map_app, <- MultProofs.seq_split by exact Hd.
  unfold items. f_equal. rewrite off_S by lia. replace (off (rwA r) i + length (R (rwA r) i) - off (rwA r) i) with (length (R (rwA r) i)) by lia.
  rewrite (seq_shift_map (off (rwA r) i)), map_map. apply map_seq_nth. intros t c Ht. unfold pk. f_equal.
  destruct (A_at r i (off (rwA r) i + t) Hr Hi) as (c' & X1 & _ & _ & _ & X5 & _). { rewrite off_S by lia. apply nth_error_bound in Ht. lia. }
  rewrite (nth_error_nth _ _ 0 X1). replace (off (rwA r) i + t - off (rwA r) i) with t in X5 by lia. congruence.
Qed.

(** Every column met is in the column map. *)
Lemma BROW_cols r i c it : r < P -> i < size_local (A0 r) -> In c (R (rwA r) i) -> In it (BROW (gcol A1 r c)) -> local_to_global (CM r) (lc r (fst (snd it))) = Some (fst (snd it)).
Proof.
  intros Hr Hi Hc Hit. assert (E : local_to_global (A1 r) c = Some (gcol A1 r c)) by (eapply gcol_ok; eauto). unfold local_to_global in E. destruct (Nat.ltb_spec c (size_local (A1 r))) as [L|L].
  - assert (Eg : gcol A1 r c = im_lo (A1 r) + c) by congruence. rewrite Eg, BROW_local in Hit by assumption.
    destruct (B_rows P B0 B1 matsB HmB r Hr) as (F1 & F2 & F3 & F4). destruct (size_BA r Hr) as (Es & _).
    destruct (BR_in zero P B0 B1 matsB HP HB1 HmB r c it Hr ltac:(lia) Hit) as (b & _ & -> & El & _). cbn [fst snd].
    now destruct (lc_B zero P nbx A1 B0 B1 matsB HP Hnbx HA1 HB0 HB1 HmB Hsame r b _ Hr El).
  - assert (Hg : In (gcol A1 r c) (im_ghosts (A1 r))) by (eapply nth_error_In; eauto).
    assert (Hf : In it (concat (map BROW (gl A1 r)))). { apply in_concat. exists (BROW (gcol A1 r c)). split; [|exact Hit]. apply in_map. eapply Permutation_in; [eapply gl_perm; eauto|exact Hg]. }
    destruct (lc_in zero P nbx A1 B0 B1 matsB HP Hnbx HA1 HB0 HB1 HmB Hsame r _ Hr (CG_has_fetched zero P A1 B0 B1 matsB HP HA1 r it Hr Hf)) as (c' & Z & <- & _). exact Z.
Qed.

Lemma tsum_vals {X} (f : X -> nat) (w : X -> T) k l : tsum (vals k (map (fun x => (f x, w x)) l)) = tsum (map (fun x => if f x =? k then w x else zero) l).
Proof.
  rewrite vals_map_filter. induction l as [|x l IH]; [reflexivity|]. cbn [filter map]. rewrite tsum_cons, <- IH. destruct (f x =? k); cbn [map]; [now rewrite tsum_cons|]. ring.
Qed.
Lemma vals_items_concat k (L : list (list (nat * T))) : vals k (concat L) = concat (map (vals k) L).
Proof. induction L as [|x L IH]; [reflexivity|]. cbn [concat map]. now rewrite vals_app, IH. Qed.

Notation gA G g := (gmat zero P A0 A1 1 1 matsA G g 0 0).
Notation gB g h := (gmat zero P B0 B1 1 1 matsB g h 0 0).

Lemma A_owner r i c : r < P -> i < size_local (A0 r) -> In c (R (rwA r) i) -> exists o, o < P /\ owns (B0 o) (gcol A1 r c).
Proof.
  intros Hr Hi Hc. assert (E : local_to_global (A1 r) c = Some (gcol A1 r c)) by (eapply gcol_ok; eauto).
  destruct (MultProofs.l2g_owned P A1 HA1 r c _ Hr E) as (o & Ho & Hw). exists o. split; [exact Ho|]. destruct (Hsame o Ho) as (E1 & E2). unfold owns in *. now rewrite E1, E2.
Qed.

Lemma prod_one r i c k h : r < P -> i < size_local (A0 r) -> In c (R (rwA r) i) -> local_to_global (CM r) k = Some h ->
  tsum (vals k (prods r i c)) = mul (va r i c) (gB (gcol A1 r c) h).
Proof.
  intros Hr Hi Hc Hk. unfold prods. rewrite tsum_vals.
  transitivity (tsum (map (fun it : T * (nat * nat) => mul (va r i c) (if fst (snd it) =? h then fst it else zero)) (BROW (gcol A1 r c)))).
  { apply tsum_ext. intros it Hit. pose proof (BROW_cols r i c it Hr Hi Hc Hit) as E. destruct (Nat.eqb_spec (lc r (fst (snd it))) k) as [Ek|Nk], (Nat.eqb_spec (fst (snd it)) h) as [Eh|Nh]; try reflexivity; try ring.
    - exfalso. apply Nh. rewrite Ek in E. congruence.
    - exfalso. apply Nk. rewrite Eh in E at 2. eapply (l2g_inj P CM r); eauto. apply CM_ok. }
  rewrite (tsum_map_scale T zero one add mul sub opp Rth). f_equal. destruct (A_owner r i c Hr Hi Hc) as (o & Ho & Hw). set (g := gcol A1 r c) in *.
  unfold MatMulComm.BROW. rewrite (own_ok P B0 HB0 o g Ho Hw). unfold BR. rewrite map_map. cbn [fst snd].
  rewrite (MultProofs.gmat_owner zero P B0 B1 1 1 matsB HB0 o g h 0 0 Ho Hw). unfold owns in Hw. set (j := loc B0 o g).
  assert (Hj : local_to_global (B0 o) j = Some g) by (rewrite l2g_own; unfold j, loc; [f_equal; lia|unfold size_local; lia]).
  destruct (B_rows P B0 B1 matsB HmB o Ho) as (F1 & F2 & F3 & F4). destruct (existsb (fun b => gcol B1 o b =? h) (R (rwB o) j)) eqn:Ex.
  - apply existsb_exists in Ex as (b & Hb & Eb). apply Nat.eqb_eq in Eb. subst h.
    rewrite (MultProofs.tsum_single zero one add mul sub opp Rth (fun b' => if gcol B1 o b' =? gcol B1 o b then nth (pos (rwB o) j b') (mt_data (matsB o)) zero else zero) _ b).
    + rewrite Nat.eqb_refl. pose proof (MultProofs.ent_val zero P B0 B1 1 1 matsB HB0 HB1 HmB o j g b 0 0 Ho Hj Hb) as Ev. unfold MultProofs.val in Ev. rewrite <- Ev by lia. f_equal. lia.
    + apply SS_lt_NoDup, R_sorted. exact F3.
    + exact Hb.
    + intros b' Hb' Ne. destruct (Nat.eqb_spec (gcol B1 o b') (gcol B1 o b)) as [E|_]; [|reflexivity]. exfalso. apply Ne. eapply (MultProofs.gc_inj P B0 B1 1 1 matsB HB1 HmB o j); eauto.
  - rewrite (MultProofs.ent_zero zero P B0 B1 1 1 matsB HB0 HB1 HmB o j g h 0 0 Ho Hj) by
      (first [lia|intros b Hb E; assert (existsb (fun b => gcol B1 o b =? h) (R (rwB o) j) = true) by (apply existsb_exists; exists b; split; [exact Hb|now apply Nat.eqb_eq]); congruence]).
    apply (tsum_zero zero one add mul sub opp Rth). intros b Hb. destruct (Nat.eqb_spec (gcol B1 o b) h) as [E|_]; [|reflexivity].
    exfalso. assert (existsb (fun b => gcol B1 o b =? h) (R (rwB o) j) = true) by (apply existsb_exists; exists b; split; [exact Hb|now apply Nat.eqb_eq]). congruence.
Qed.

Notation mp G h := (mat_product zero add mul P A0 A1 B0 B1 matsA matsB G h).
Lemma rsum_ok r i k h : r < P -> i < size_local (A0 r) -> local_to_global (CM r) k = Some h -> rsum zero add (items r i) k = mp (im_lo (A0 r) + i) h.
Proof.
  intros Hr Hi Hk. unfold rsum, items. rewrite vals_items_concat, map_map, (tsum_concat T zero one add mul sub opp Rth), map_map.
  destruct (A_rows r Hr) as (E1 & E2 & E3 & E4). assert (Hw : owns (A0 r) (im_lo (A0 r) + i)) by (unfold owns; unfold size_local in Hi; lia).
  assert (Ei : local_to_global (A0 r) i = Some (im_lo (A0 r) + i)) by (now apply l2g_own).
  unfold mat_product. rewrite <- (MultProofs.row_global zero one add mul sub opp Rth P A0 A1 1 1 matsA HA1 HmA r i (fun g => mul (gA (im_lo (A0 r) + i) g) (gB g h)) Hr).
  - apply tsum_ext. intros c Hc. rewrite (prod_one r i c k h Hr Hi Hc Hk). f_equal. rewrite (MultProofs.gmat_owner zero P A0 A1 1 1 matsA HA0 r _ _ 0 0 Hr Hw).
    pose proof (MultProofs.ent_val zero P A0 A1 1 1 matsA HA0 HA1 HmA r i _ c 0 0 Hr Ei Hc) as Ev. unfold MultProofs.val in Ev. rewrite <- Ev by lia. f_equal. lia.
  - intros g Hg. rewrite (MultProofs.gmat_owner zero P A0 A1 1 1 matsA HA0 r _ _ 0 0 Hr Hw), (MultProofs.ent_zero zero P A0 A1 1 1 matsA HA0 HA1 HmA r i _ g 0 0 Hr Ei) by (auto; lia). ring.
Qed.

(** ** The result *)
Notation ncols r := (size_local (CM r) + num_ghosts (CM r)).
Definition ORow r i : list (nat * T) := crow zero add eqb (ncols r) (items r i).
Lemma items_lt' r i : r < P -> i < size_local (A0 r) -> Forall (fun kv : nat * T => fst kv < ncols r) (items r i).
Proof.
  intros Hr Hi. apply Forall_forall. intros kv H. apply in_concat in H as (l & Hl & H). apply in_map_iff in Hl as (c & <- & Hc). apply in_map_iff in H as (it & <- & Hit). cbn [fst].
  apply (l2g_some (CM r) (mo_range _ _ CM_ok r Hr)). eexists. now apply (BROW_cols r i c).
Qed.
Lemma ORow_in r i c v : r < P -> i < size_local (A0 r) -> In (c, v) (ORow r i) <-> exists h, local_to_global (CM r) c = Some h /\ v = mp (im_lo (A0 r) + i) h /\ v <> zero.
Proof.
  intros Hr Hi. unfold ORow, crow. rewrite in_map_iff. split.
  - intros (k & E & H). injection E as <- <-. apply filter_In in H as (Hk & Hz). apply in_seq in Hk.
    destruct (proj2 (l2g_some (CM r) (mo_range _ _ CM_ok r Hr) k)) as (h & Eh); [lia|]. exists h. split; [exact Eh|]. rewrite (rsum_ok r i k h Hr Hi Eh) in *. split; [reflexivity|].
    intro E. apply eqb_ok in E. rewrite E in Hz. discriminate.
  - intros (h & Eh & -> & Hz). exists c. rewrite (rsum_ok r i c h Hr Hi Eh). split; [reflexivity|]. apply filter_In. rewrite (rsum_ok r i c h Hr Hi Eh). split.
    + apply in_seq. assert (c < ncols r) by (apply (l2g_some (CM r) (mo_range _ _ CM_ok r Hr)); eauto). lia.
    + apply Bool.negb_true_iff. destruct (eqb _ zero) eqn:E; [apply eqb_ok in E; contradiction|reflexivity].
Qed.
Lemma ORow_sorted r i : StronglySorted lt (map fst (ORow r i)).
Proof.
  unfold ORow, crow. rewrite map_map. cbn [fst]. rewrite map_id. apply SS_filter. apply SS_lt_seq.
Qed.

Definition rm := imap_plain P (fun q => size_local (A0 q)).
Lemma rm_ok : maps_ok P rm. Proof. now apply plain_ok. Qed.
Lemma rm_size r : size_local (rm r) = size_local (A0 r).
Proof. unfold rm, imap_plain, size_local at 1. cbn [im_lo im_hi]. lia. Qed.
Lemma rm_range r : r < P -> im_lo (rm r) = im_lo (A0 r) /\ im_hi (rm r) = im_hi (A0 r).
Proof.
  intro Hr. assert (Elo : im_lo (rm r) = im_lo (A0 r)).
  { rewrite (lo_is_sum P rm rm_ok r Hr), (lo_is_sum P A0 HA0 r Hr). f_equal. apply map_ext. intro q. apply rm_size. }
  split; [exact Elo|]. pose proof (mo_range _ _ HA0 r Hr). cbn [rm imap_plain im_lo im_hi] in *. rewrite Elo. unfold size_local. lia.
Qed.

Definition brow r i := map (fun kv : nat * T => (fst kv, [snd kv])) (ORow r i).
Definition brows r := map (brow r) (seq 0 (size_local (A0 r))).
Definition MC r : csr T := of_rows 1 1 (brows r).
Definition nd r i := length (filter (fun c => c <? size_local (CM r)) (map fst (ORow r i))).
Definition wd r i := length (ORow r i).
Definition OC r := map (fun i => nd r i + at_w (wd r) i) (seq 0 (size_local (A0 r))).

Lemma brow_fst r i : map fst (brow r i) = map fst (ORow r i).
Proof. unfold brow. now rewrite map_map. Qed.
Lemma brows_blk r row cb : In row (brows r) -> In cb row -> length (snd cb) = 1 * 1.
Proof. intros H1 H2. apply in_map_iff in H1 as (i & <- & _). apply in_map_iff in H2 as (kv & <- & _). reflexivity. Qed.
Lemma brows_sorted r row : In row (brows r) -> StronglySorted lt (map fst row).
Proof. intro H. apply in_map_iff in H as (i & <- & _). rewrite brow_fst. apply ORow_sorted. Qed.
Lemma brows_nth r i : i < size_local (A0 r) -> nth i (brows r) [] = brow r i.
Proof. intro H. apply nth_error_nth. unfold brows. rewrite nth_error_map_some, nth_error_seq by exact H. reflexivity. Qed.
Lemma brows_len r : length (brows r) = size_local (A0 r).
Proof. unfold brows. now rewrite map_length, seq_length. Qed.

Lemma MC_has r i c : r < P -> row_has (MC r) i c <-> i < size_local (A0 r) /\ exists h, local_to_global (CM r) c = Some h /\ mp (im_lo (A0 r) + i) h <> zero.
Proof.
  intro Hr. unfold MC. rewrite of_rows_has by (first [lia|apply brows_sorted|apply brows_blk]). rewrite brows_len. split.
  - intros (Hi & H). split; [exact Hi|]. rewrite brows_nth, brow_fst in H by exact Hi. apply in_map_iff in H as ([c' v] & <- & H). apply ORow_in in H as (h & Eh & -> & Hz); eauto.
  - intros (Hi & h & Eh & Hz). split; [exact Hi|]. rewrite brows_nth, brow_fst by exact Hi. apply in_map_iff. exists (c, mp (im_lo (A0 r) + i) h). split; [reflexivity|]. apply ORow_in; eauto.
Qed.

Lemma MC_mats : mats_ok P rm CM 1 1 MC.
Proof.
  split.
  - intros r Hr. split; [|auto]. apply of_rows_ok; first [lia|apply brows_sorted|apply brows_blk].
  - intros r Hr. cbn [MC of_rows mt_rp]. rewrite psums_length, map_length, brows_len, rm_size. cbn. lia.
  - intros r c Hr H. cbn [MC of_rows mt_cols] in H. apply in_map_iff in H as ([c' b] & <- & H). apply in_concat in H as (row & Hrow & H). apply in_map_iff in Hrow as (j & <- & Hj). apply in_seq in Hj.
    apply in_map_iff in H as ([k v] & E & H). cbn [fst snd] in E. injection E as <- <-. apply ORow_in in H as (h & E & _); [|exact Hr|lia]. cbn [fst]. apply (l2g_some (CM r) (mo_range _ _ CM_ok r Hr)). eauto.
  - intros q k G r c g Hq H. destruct k; discriminate.
Qed.

(** The number of owned columns splits a sorted row. *)
Lemma split_row n l : StronglySorted lt l -> forall p c, nth_error l p = Some c -> (p < length (filter (fun c => c <? n) l) <-> c < n).
Proof.
  induction 1 as [|x l Hl IH Hf]; intros p c Hp; [destruct p; discriminate|]. rewrite Forall_forall in Hf. cbn [filter]. destruct (Nat.ltb_spec x n) as [L|L].
  - destruct p as [|p]; cbn [nth_error] in Hp; cbn [length]; [injection Hp as <-; lia|]. rewrite <- (IH p c Hp). lia.
  - rewrite filter_none by (intros y Hy; apply Nat.ltb_ge; specialize (Hf y Hy); lia). cbn [length]. split; [lia|]. intro Lc. destruct p as [|p]; cbn in Hp; [injection Hp as <-; lia|].
    apply nth_error_In in Hp. specialize (Hf c Hp). lia.
Qed.
Lemma filter_length_le' {A} (p : A -> bool) l : length (filter p l) <= length l.
Proof. induction l as [|x l IH]; cbn; [lia|]. destruct (p x); cbn; lia. Qed.

Lemma OC_sharp : offs_ok P rm CM OC MC.
Proof.
  intros r Hr. rewrite rm_size. split; [unfold OC; now rewrite map_length, seq_length|]. intros j Hj.
  assert (Erp : mt_rp (MC r) = psums (map (wd r) (seq 0 (size_local (A0 r))))).
  { cbn [MC of_rows mt_rp]. unfold brows. rewrite map_map. f_equal. apply map_ext. intro i. unfold brow, wd. apply map_length. }
  exists (at_w (wd r) j), (nd r j + at_w (wd r) j), (at_w (wd r) (S j)). rewrite Erp, !rp_at by lia.
  split; [reflexivity|]. split; [unfold OC; rewrite nth_error_map_some, nth_error_seq by exact Hj; reflexivity|]. split; [reflexivity|].
  pose proof (at_w_S (wd r) j) as HS. assert (Hn : nd r j <= wd r j) by (unfold nd, wd; rewrite <- (map_length fst (ORow r j)); apply filter_length_le'). split; [lia|].
  intros p c Hp Hc.
  assert (Ec : nth_error (brow r j) (p - at_w (wd r) j) = nth_error (concat (brows r)) p).
  { replace p with (at_w (wd r) j + (p - at_w (wd r) j)) at 2 by lia. symmetry. replace (at_w (wd r) j) with (lsum (firstn j (map (@length _) (brows r)))) at 1.
    - apply nth_error_concat; [unfold brows; rewrite nth_error_map_some, nth_error_seq by exact Hj; reflexivity|]. unfold brow. rewrite map_length. fold (wd r j). lia.
    - unfold brows. rewrite map_map, firstn_map_seq by lia. unfold at_w. f_equal. apply map_ext. intro i. unfold brow, wd. apply map_length. }
  cbn [MC of_rows mt_cols] in Hc. rewrite nth_error_map_some, <- Ec, <- nth_error_map_some, brow_fst in Hc.
  rewrite <- (split_row (size_local (CM r)) _ (ORow_sorted r j) _ _ Hc). fold (nd r j). lia.
Qed.

Lemma CM_range : same_ranges P CM B1.
Proof. intros r Hr. now destruct (CM_at r Hr) as (_ & X). Qed.

(** A nonzero entry lies in an owned row and a column of the column map. *)
Lemma mp_nonzero G h : mp G h <> zero -> exists r i c, r < P /\ i < size_local (A0 r) /\ im_lo (A0 r) + i = G /\ local_to_global (CM r) c = Some h.
Proof.
  intro Hz. destruct (find (fun q => (im_lo (A0 q) <=? G) && (G <? im_hi (A0 q))) (seq 0 P)) as [r|] eqn:E.
  - apply find_some in E as (Hq & E). apply in_seq in Hq. apply Bool.andb_true_iff in E. rewrite Nat.leb_le, Nat.ltb_lt in E. assert (Hr : r < P) by lia.
    set (i := G - im_lo (A0 r)). assert (Hi : i < size_local (A0 r)) by (unfold i, size_local; lia). assert (EG : im_lo (A0 r) + i = G) by (unfold i; lia).
    exists r, i. destruct (index_in h (global_indices (CM r))) as [c|] eqn:Ec.
    + exists c. do 3 (split; [assumption|]). now apply (gidx P CM r h c CM_ok Hr).
    + exfalso. apply Hz. pose proof (gidx_none P CM r h CM_ok Hr Ec) as Hno. assert (Hw : owns (A0 r) G) by (unfold owns; lia).
      assert (Ei : local_to_global (A0 r) i = Some G) by (rewrite l2g_own by exact Hi; now f_equal).
      unfold mat_product. apply (tsum_zero zero one add mul sub opp Rth). intros g _. rewrite (MultProofs.gmat_owner zero P A0 A1 1 1 matsA HA0 r G g 0 0 Hr Hw).
      destruct (existsb (fun c => gcol A1 r c =? g) (R (rwA r) i)) eqn:Ex.
      * apply existsb_exists in Ex as (c & Hc & Eg). apply Nat.eqb_eq in Eg. subst g.
        replace (gB (gcol A1 r c) h) with zero; [ring|]. symmetry. destruct (A_owner r i c Hr Hi Hc) as (o & Ho & Hwo).
        rewrite (MultProofs.gmat_owner zero P B0 B1 1 1 matsB HB0 o _ h 0 0 Ho Hwo). set (g := gcol A1 r c) in *. set (j := loc B0 o g).
        assert (Hj : local_to_global (B0 o) j = Some g) by (unfold owns in Hwo; rewrite l2g_own; unfold j, loc; [f_equal; lia|unfold size_local; lia]).
        apply (MultProofs.ent_zero zero P B0 B1 1 1 matsB HB0 HB1 HmB o j g h 0 0 Ho Hj); [lia|lia|]. intros b Hb Eb.
        apply (Hno (lc r h)). assert (Hit : In (nth (pos (rwB o) j b) (mt_data (matsB o)) zero, (gcol B1 o b, ocol B1 o b)) (BROW g)).
        { unfold MatMulComm.BROW. rewrite (own_ok P B0 HB0 o g Ho Hwo). unfold BR. apply in_map_iff. exists b. auto. }
        pose proof (BROW_cols r i c _ Hr Hi Hc Hit) as Z. cbn [fst snd] in Z. now rewrite Eb in Z.
      * rewrite (MultProofs.ent_zero zero P A0 A1 1 1 matsA HA0 HA1 HmA r i G g 0 0 Hr Ei); [ring|lia|lia|]. intros c Hc Eg.
        assert (existsb (fun c => gcol A1 r c =? g) (R (rwA r) i) = true) by (apply existsb_exists; exists c; split; [exact Hc|now apply Nat.eqb_eq]). congruence.
  - exfalso. apply Hz. unfold mat_product. apply (tsum_zero zero one add mul sub opp Rth). intros g _. unfold gmat at 1. rewrite E. ring.
Qed.

Lemma MC_stored G h : stored P rm CM MC G h <-> mp G h <> zero.
Proof.
  split.
  - intros (r & i & c & Hr & Hi & EG & Ec & H). rewrite rm_size in Hi. destruct (rm_range r Hr) as (Elo & _). rewrite Elo in EG. apply MC_has in H as (_ & h' & Eh & Hz); [|exact Hr].
    subst G. congruence.
  - intro Hz. destruct (mp_nonzero G h Hz) as (r & i & c & Hr & Hi & EG & Ec). exists r, i, c. rewrite rm_size. destruct (rm_range r Hr) as (Elo & _). rewrite Elo.
    do 4 (split; [assumption|]). apply MC_has; [exact Hr|]. split; [exact Hi|]. exists h. subst G. auto.
Qed.

Lemma MC_gmat G h : gmat zero P rm CM 1 1 MC G h 0 0 = mp G h.
Proof.
  destruct (eqb (mp G h) zero) eqn:Ez.
  - apply eqb_ok in Ez. rewrite Ez. destruct (TransProofs.gmat_cases zero P rm CM 1 1 MC rm_ok CM_ok MC_mats G h 0 0) as [(r & i & c & Hr & Hi & EG & Ec & Hin & _)|(_ & ->)]; [lia|lia| |reflexivity].
    exfalso. assert (Hst : stored P rm CM MC G h). { exists r, i, c. do 4 (split; [assumption|]). apply (row_has_R P rm CM 1 1 MC MC_mats); assumption. }
    now apply MC_stored in Hst.
  - assert (Hz : mp G h <> zero) by (intro E; apply eqb_ok in E; congruence). destruct (mp_nonzero G h Hz) as (r & i & c & Hr & Hi & EG & Ec). destruct (rm_range r Hr) as (Elo & Ehi).
    unfold gmat. rewrite (MultProofs.find_owner P rm rm_ok r G Hr) by (unfold owns; rewrite Elo, Ehi; unfold size_local in Hi; lia).
    rewrite (entry_at zero P rm CM 1 1 rm_ok CM_ok MC r G h i c 0 0 Hr); [|rewrite l2g_own by (now rewrite rm_size); f_equal; lia|exact Ec].
    unfold MC. rewrite (of_rows_dense zero 1 1 (brows r)) with (b := [mp G h]); [reflexivity| | | | | | |]; try lia; [apply brows_blk|apply brows_sorted|].
    rewrite brows_nth by exact Hi. apply in_map_iff. exists (c, mp G h). split; [reflexivity|]. apply ORow_in; [exact Hr|exact Hi|]. exists h. subst G. auto.
Qed.

Lemma singles (l : list (nat * T)) : concat (map snd (map (fun kv : nat * T => (fst kv, [snd kv])) l)) = map snd l.
Proof. induction l as [|x l IH]; [reflexivity|]. cbn [map concat snd app]. now rewrite IH. Qed.

Lemma matmul_at r : r < P -> uniform P A1 -> matmul zero add mul eqb P nbx A0 A1 B0 B1 matsA matsB offsA r = Some (Some (rm r, (CM r, (MC r, OC r)))).
Proof.
  intros Hr Hu. unfold matmul. destruct (bs_ok P A0 A1 1 1 matsA HmA r Hr) as (-> & ->). destruct (bs_ok P B0 B1 1 1 matsB HmB r Hr) as (-> & ->). cbn [negb Nat.eqb andb].
  rewrite (proj2 (mm_matched_iff P A1 HP HA1) Hu). cbn [negb]. destruct (CM_at r Hr) as (-> & _). cbn [obind].
  rewrite (ghost_rows_ok zero P nbx A1 B0 B1 matsB HP Hnbx HA1 HB0 HB1 HmB Hsame r Hr). cbn [obind].
  rewrite (remap_ok zero P nbx A1 B0 B1 matsB HP Hnbx HA1 HB0 HB1 HmB Hsame r Hr). cbn [obind].
  rewrite omap_map with (g := items r).
  2:{ intros i Hi. apply in_seq in Hi. rewrite local_ok by lia. cbn [obind]. rewrite ghost_ok by lia. cbn [obind]. rewrite items_ok by lia. reflexivity. }
  cbn [obind]. rewrite (mm_rows_ok zero one add mul sub opp eqb Rth eqb_ok).
  2:{ apply Forall_forall. intros row H. apply in_map_iff in H as (i & <- & Hi). apply in_seq in Hi. apply items_lt'; [exact Hr|lia]. }
  cbn [obind]. unfold csr_compact. cbn [mm_rp mm_off mm_cols mm_vals mt_cols mt_rp]. fold rm. do 4 f_equal.
  assert (Ec : concat (brows r) = map (fun kv : nat * T => (fst kv, [snd kv])) (concat (map (crow zero add eqb (ncols r)) (map (items r) (seq 0 (size_local (A0 r))))))).
  { rewrite concat_map, !map_map. reflexivity. }
  assert (El : map (@length _) (brows r) = map (@length _) (map (crow zero add eqb (ncols r)) (map (items r) (seq 0 (size_local (A0 r)))))).
  { unfold brows. rewrite !map_map. apply map_ext. intro i. unfold brow. apply map_length. }
  f_equal.
  - unfold MC, of_rows. rewrite Ec, El, singles. f_equal. rewrite (map_map (fun kv : nat * T => (fst kv, [snd kv])) fst). reflexivity.
  - unfold OC. rewrite !map_map.
    apply nth_error_ext. intro i. rewrite nth_error_map_some, TransProofs.combine_nth_error, !nth_error_map_some. destruct (lt_dec i (size_local (A0 r))) as [L|L].
    + rewrite !nth_error_seq by exact L. cbn [option_map plus]. change (fun x => length (crow zero add eqb (ncols r) (items r x))) with (wd r). rewrite rp_at by lia. reflexivity.
    + rewrite !(proj2 (nth_error_None (seq 0 (size_local (A0 r))) i)) by (rewrite seq_length; lia). reflexivity.
Qed.

Lemma matmul_ok : uniform P A1 -> exists rm' cm' mats' offs',
  (forall r, r < P -> matmul zero add mul eqb P nbx A0 A1 B0 B1 matsA matsB offsA r = Some (Some (rm' r, (cm' r, (mats' r, offs' r))))) /\
  is_product zero add mul P A0 A1 B0 B1 matsA matsB rm' cm' mats' offs'.
Proof.
  intro Hu. exists rm, CM, MC, OC. split; [intros r Hr; now apply matmul_at|]. split; [exact rm_ok|]. split; [exact CM_ok|]. split; [exact rm_range|]. split; [exact CM_range|].
  split; [intros r Hr; reflexivity|]. split; [exact MC_mats|]. split; [exact OC_sharp|]. split; [exact MC_stored|exact MC_gmat].
Qed.
End Mul.

Lemma matmul_blocks {T} (zero : T) add mul eqb P nbx A0 A1 B0 B1 (matsA matsB : nat -> csr T) offsA r :
  mt_bs0 (matsA r) <> 1 \/ mt_bs1 (matsA r) <> 1 \/ mt_bs0 (matsB r) <> 1 \/ mt_bs1 (matsB r) <> 1 ->
  matmul zero add mul eqb P nbx A0 A1 B0 B1 matsA matsB offsA r = Some None.
Proof.
  intro H. unfold matmul. replace (_ && _ && _ && _) with false; [reflexivity|]. symmetry.
  destruct (Nat.eqb_spec (mt_bs0 (matsA r)) 1), (Nat.eqb_spec (mt_bs1 (matsA r)) 1), (Nat.eqb_spec (mt_bs0 (matsB r)) 1), (Nat.eqb_spec (mt_bs1 (matsB r)) 1); try reflexivity. tauto.
Qed.

Lemma matched_same P l : matched P (fun _ => l) = true.
Proof. unfold matched. apply forallb_forall. intros r _. apply TransProofs.colls_eqb_refl. Qed.
Lemma ctor_matched P : matched P (fun _ => imap_plain_calls) = true /\ matched P (fun _ => imap_make_calls P) = true /\ matched P (fun _ => scatterer_calls P) = true.
Proof. auto using matched_same. Qed.
