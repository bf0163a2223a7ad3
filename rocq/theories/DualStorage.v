(** The facet storage filled by several threads. *)
From Verif Require Import Base BaseProofs Algo AlgoProofs CellTypes Ranges RangesProofs SortSpec DualGraph DualGraphSpec DualRows DualPairs.
Open Scope nat_scope.

(** ** Tables *)
Lemma verts_ok t : cell_num_entities t 0 = Some (verts t) /\ 0 < verts t.
Proof. destruct t; cbn; split; (reflexivity || lia). Qed.
Lemma facets_ok t : 0 < cell_dim t -> get_entity_vertices t (cell_dim t - 1) = Some (facets t).
Proof. destruct t; cbn; intro H; try lia; reflexivity. Qed.
Lemma facets_bound t fv x : In fv (facets t) -> In x fv -> x < verts t.
Proof.
  intros H1 H2.
  assert (G : forallb (fun fv => forallb (fun x => x <? verts t) fv) (facets t) = true) by (destruct t; reflexivity).
  rewrite forallb_forall in G. specialize (G fv H1). rewrite forallb_forall in G. now apply Nat.ltb_lt, G.
Qed.
Lemma facets_nonempty t fv : 0 < cell_dim t -> In fv (facets t) -> fv <> [].
Proof.
  intros H0 H1.
  assert (G : (0 <? cell_dim t) = true -> forallb (fun fv => 0 <? length fv) (facets t) = true) by (destruct t; cbn; (reflexivity || discriminate)).
  apply Nat.ltb_lt in H0. specialize (G H0). rewrite forallb_forall in G. specialize (G fv H1). intros ->. discriminate.
Qed.

Lemma nth_error_firstn {A} n (l : list A) i : i < n -> nth_error (firstn n l) i = nth_error l i.
Proof. revert n l. induction i as [|i IH]; intros [|n] [|x l] H; cbn; try reflexivity; try lia. apply IH. lia. Qed.
Lemma nth_error_skipn {A} n (l : list A) i : nth_error (skipn n l) i = nth_error l (n + i).
Proof. revert l. induction n as [|n IH]; intros [|x l]; cbn; auto. now destruct i. Qed.

(** ** Scattered writes *)
Lemma scatter_gen {V} (ws : list (nat * V)) : forall mem, NoDup (map fst ws) -> (forall w, In w ws -> fst w < length mem) ->
  exists mem', ofold (fun (mem : list V) w => upd mem (fst w) (snd w)) ws mem = Some mem' /\ length mem' = length mem /\
    (forall i v, In (i, v) ws -> nth_error mem' i = Some v) /\ (forall i, ~ In i (map fst ws) -> nth_error mem' i = nth_error mem i).
Proof.
  induction ws as [|(i, v) ws IH]; intros mem H1 H2.
  - exists mem. cbn. repeat split; auto. intros i v [].
  - cbn [map fst ofold] in *. inversion H1 as [|? ? Hi Hn]; subst. destruct (upd_some mem i v) as (m1 & E1); [exact (H2 (i, v) (or_introl eq_refl))|].
    cbn [fst snd]. rewrite E1. cbn [obind]. pose proof (upd_length _ _ _ _ E1) as L1.
    destruct (IH m1 Hn) as (m' & E & L & A & B); [intros w Hw; rewrite L1; apply H2; now right|].
    exists m'. split; [exact E|]. split; [lia|]. split.
    + intros j u [K|K]; [injection K as <- <-|now apply A]. rewrite (B i Hi). exact (upd_nth_eq _ _ _ _ E1).
    + intros j Hj. cbn in Hj. rewrite B by tauto. apply (upd_nth_neq _ _ _ _ _ E1). intro; apply Hj; now left.
Qed.
Lemma in_combine_seq {V} a (vs : list V) i v : In (i, v) (combine (seq a (length vs)) vs) <-> a <= i /\ nth_error vs (i - a) = Some v.
Proof.
  revert a. induction vs as [|x vs IH]; intro a; cbn.
  - split; [tauto|]. intros (_ & H). destruct (i - a); discriminate.
  - rewrite IH. split.
    + intros [E|(H1 & H2)].
      * injection E as -> ->. rewrite Nat.sub_diag. auto.
      * split; [lia|]. replace (i - a) with (S (i - S a)) by lia. exact H2.
    + intros (H1 & H2). destruct (Nat.eq_dec i a) as [->|N].
      * rewrite Nat.sub_diag in H2. injection H2 as ->. now left.
      * right. split; [lia|]. replace (i - a) with (S (i - S a)) in H2 by lia. exact H2.
Qed.
Lemma scatter {V} (ws : list (nat * V)) p vs q r : Permutation ws (combine (seq (length p) (length vs)) vs) -> length q = length vs ->
  ofold (fun (mem : list V) w => upd mem (fst w) (snd w)) ws (p ++ q ++ r) = Some (p ++ vs ++ r).
Proof.
  intros HP Hq.
  assert (Ef : Permutation (map fst ws) (seq (length p) (length vs))).
  { rewrite HP, map_fst_combine by (rewrite seq_length; lia). reflexivity. }
  destruct (scatter_gen ws (p ++ q ++ r)) as (m & E & L & A & B).
  - eapply Permutation_NoDup; [symmetry; exact Ef|apply seq_NoDup].
  - intros w Hw. assert (H : In (fst w) (map fst ws)) by (now apply in_map). rewrite Ef in H. apply in_seq in H. rewrite !app_length. lia.
  - rewrite E. f_equal. apply nth_error_ext. intro i.
    destruct (Nat.lt_ge_cases i (length p)) as [H|H].
    + rewrite B by (intro K; rewrite Ef in K; apply in_seq in K; lia). now rewrite !nth_error_app1 by lia.
    + rewrite (nth_error_app2 p) by exact H. destruct (Nat.lt_ge_cases (i - length p) (length vs)) as [H'|H'].
      * rewrite nth_error_app1 by exact H'. destruct (nth_error_lt vs (i - length p) H') as (v & Ev). rewrite Ev. apply A.
        eapply Permutation_in; [symmetry; exact HP|]. apply in_combine_seq. auto.
      * rewrite (nth_error_app2 vs) by exact H'. rewrite B.
        -- rewrite (nth_error_app2 p) by exact H. rewrite (nth_error_app2 q) by lia. f_equal. lia.
        -- intro K. rewrite Ef in K. apply in_seq in K. lia.
Qed.

(** ** The writes of one block *)
Definition fverts (t : cell_type) (a : list Z) (k : nat) (fv : list nat) : list Z := map (fun x => nth (k * verts t + x) a 0%Z) fv.

Section Block.
Variables (t : cell_type) (a : list Z) (w co fo : nat).
Hypothesis Hd : 0 < cell_dim t.
Hypothesis Hw : forall fv, In fv (facets t) -> length fv <= w.
Let nf := length (facets t).
Let nv := verts t.
Definition wr (c f : nat) : nat * frow := (fo + c * length (facets t) + f, (fkey w (fverts t a c (nth f (facets t) [])), c + co)).

Lemma build_facets_ok c0 m sub : slice a (c0 * nv) (c0 * nv + m * nv) = Some sub ->
  build_facets w nv (co + c0) (fo + c0 * nf) (facets t) sub = Some (concat (map (fun c => map (wr c) (seq 0 nf)) (seq c0 m))).
Proof.
  intro E. pose proof (proj2 (verts_ok t)) as Hv. fold nv in Hv. apply slice_some in E as (E1 & E2 & E3).
  assert (Ls : length sub = m * nv) by (rewrite E3, firstn_length, skipn_length; lia).
  unfold build_facets. rewrite Ls, Nat.div_mul by lia.
  rewrite omap_map with (g := fun c => map (wr (c0 + c)) (seq 0 nf)).
  - cbn [obind]. f_equal. f_equal. replace (seq c0 m) with (map (fun c => c0 + c) (seq 0 m)) by (clear; revert c0; induction m as [|m IH]; intro c0; cbn; [reflexivity|]; rewrite Nat.add_0_r; f_equal; rewrite <- seq_shift, map_map; rewrite <- (IH (S c0)); apply map_ext; intro; lia).
    now rewrite map_map.
  - intros c Hc. apply in_seq in Hc.
    assert (Hin : nv * c + nv <= m * nv) by nia.
    assert (Es : slice sub (nv * c) (nv * c + nv) = Some (firstn nv (skipn (nv * c) sub))).
    { unfold slice. destruct (Nat.leb_spec (nv * c) (nv * c + nv)); [|lia]. destruct (Nat.leb_spec (nv * c + nv) (length sub)); [|lia]. cbn. f_equal. f_equal. lia. }
    rewrite Es. cbn [obind]. apply omap_map. intros f Hf. apply in_seq in Hf.
    destruct (nth_error_lt (facets t) f) as (fv & Efv); [unfold nf in Hf; lia|]. rewrite Efv. cbn [obind].
    assert (Ifv : In fv (facets t)) by (eapply nth_error_In; exact Efv).
    rewrite (facet_row_ok w _ fv (fverts t a (c0 + c) fv)).
    + cbn [obind]. unfold wr. rewrite (nth_error_nth _ _ _ Efv). f_equal. f_equal; [fold nf; lia|]. f_equal. lia.
    + unfold fverts. apply omap_map. intros x Hx. pose proof (facets_bound t fv x Ifv Hx) as Bx. fold nv in Bx.
      assert (Hlt : (c0 + c) * nv + x < length a) by nia. 
      destruct (nth_error_lt a _ Hlt) as (z & Ez). fold nv. rewrite (nth_error_nth _ _ _ Ez).
      rewrite nth_error_firstn by exact Bx. rewrite nth_error_skipn, E3, nth_error_firstn by nia. rewrite nth_error_skipn, <- Ez. f_equal. lia.
    + unfold fverts. rewrite map_length. auto.
Qed.

Definition bvals (c0 m : nat) : list frow :=
  concat (map (fun c => map (fun fv => (fkey w (fverts t a c fv), c + co)) (facets t)) (seq c0 m)).
Lemma bvals_length c0 m : length (bvals c0 m) = m * nf.
Proof. clear Hd Hw fo. unfold bvals. revert c0. induction m as [|m IH]; intro c0; cbn; [reflexivity|]. rewrite app_length, map_length, IH. unfold nf. lia. Qed.

Lemma combine_app {X Y} (l1 l2 : list X) (m1 m2 : list Y) : length l1 = length m1 -> combine (l1 ++ l2) (m1 ++ m2) = combine l1 m1 ++ combine l2 m2.
Proof. revert m1. induction l1 as [|x l1 IH]; intros [|y m1] H; cbn in *; try lia; [reflexivity|]. f_equal. apply IH. lia. Qed.
Lemma combine_facets (g : list nat -> frow) b (l : list (list nat)) : combine (seq b (length l)) (map g l) = map (fun f => (b + f, g (nth f l []))) (seq 0 (length l)).
Proof.
  revert b. induction l as [|x l IH]; intro b; cbn; [reflexivity|]. f_equal; [f_equal; lia|]. rewrite IH, <- seq_shift, map_map. apply map_ext. intro f. f_equal. lia.
Qed.
Lemma writes_combine c0 m : combine (seq (fo + c0 * nf) (m * nf)) (bvals c0 m) = concat (map (fun c => map (wr c) (seq 0 nf)) (seq c0 m)).
Proof.
  revert c0. induction m as [|m IH]; intro c0; [reflexivity|]. unfold bvals. cbn [seq map concat]. fold (bvals (S c0) m).
  replace (S m * nf) with (nf + m * nf) by lia. rewrite seq_app, combine_app by (rewrite seq_length, map_length; reflexivity). f_equal.
  - unfold nf. rewrite combine_facets. reflexivity.
  - rewrite <- IH. f_equal. f_equal. lia.
Qed.

Lemma ranges_ok threads nc : 0 < threads ->
  let L i := Z.to_nat (fst (local_range (Z.of_nat i) (Z.of_nat nc) (Z.of_nat threads))) in
  let U i := Z.to_nat (snd (local_range (Z.of_nat i) (Z.of_nat nc) (Z.of_nat threads))) in
  L 0 = 0 /\ (forall i, U i = L (S i)) /\ (forall i, L i <= U i) /\ L threads = nc.
Proof.
  intros Ht L U. assert (HT : (0 < Z.of_nat threads)%Z) by lia. assert (HN : (0 <= Z.of_nat nc)%Z) by lia.
  assert (C : forall i, U i = L (S i)).
  { intro i. unfold U, L. rewrite (local_range_consecutive (Z.of_nat i) _ _ HT HN) by lia. f_equal. f_equal. f_equal. lia. }
  split; [|split; [exact C|split]].
  - unfold L. cbn [Z.of_nat]. rewrite (local_range_first _ _ HT HN). reflexivity.
  - intro i. unfold L, U. pose proof (local_range_length (Z.of_nat i) _ _ HT HN) as H.
    pose proof (Z.div_pos (Z.of_nat nc) (Z.of_nat threads) HN HT). lia.
  - replace threads with (S (threads - 1)) at 1 by lia. rewrite <- C. unfold U.
    replace (Z.of_nat (threads - 1)) with (Z.of_nat threads - 1)%Z by lia. rewrite (local_range_last _ _ HT HN). lia.
Qed.

Lemma thread_writes_ok threads : 0 < threads -> exists ws,
  thread_writes threads w nv co fo (facets t) a = Some ws /\
  concat ws = combine (seq fo (length (bvals 0 (block_cells t a)))) (bvals 0 (block_cells t a)).
Proof.
  intro Ht. set (nc := block_cells t a).
  pose proof (ranges_ok threads nc Ht) as R. cbv zeta in R.
  set (L := fun i => Z.to_nat (fst (local_range (Z.of_nat i) (Z.of_nat nc) (Z.of_nat threads)))) in R.
  set (U := fun i => Z.to_nat (snd (local_range (Z.of_nat i) (Z.of_nat nc) (Z.of_nat threads)))) in R.
  change (L 0 = 0 /\ (forall i, U i = L (S i)) /\ (forall i, L i <= U i) /\ L threads = nc) in R. destruct R as (R0 & R1 & R2 & R3).
  assert (Mono : forall i j, i <= j -> L i <= L j).
  { intros i j H. induction H as [|j H IH]; [lia|]. rewrite <- R1. specialize (R2 j). lia. }
  assert (Hnc : nc * nv <= length a) by (unfold nc, block_cells, nv; rewrite Nat.mul_comm; apply Nat.mul_div_le; pose proof (proj2 (verts_ok t)); lia).
  unfold thread_writes. replace (length a / nv) with nc by reflexivity.
  exists (map (fun i => concat (map (fun c => map (wr c) (seq 0 nf)) (seq (L i) (U i - L i)))) (seq 0 threads)). split.
  - apply omap_map. intros i Hi. apply in_seq in Hi.
    destruct (local_range (Z.of_nat i) (Z.of_nat nc) (Z.of_nat threads)) as (x, y) eqn:E.
    assert (Ex : Z.to_nat x = L i) by (unfold L; now rewrite E). assert (Ey : Z.to_nat y = U i) by (unfold U; now rewrite E). rewrite Ex, Ey.
    assert (Hu : U i <= nc) by (rewrite R1, <- R3; apply Mono; lia). specialize (R2 i).
    destruct (slice a (L i * nv) (L i * nv + (U i - L i) * nv)) as [sub|] eqn:Es.
    + cbn [obind]. fold nf. exact (build_facets_ok (L i) (U i - L i) sub Es).
    + exfalso. clearbody L U. clear E. unfold slice in Es. destruct (Nat.leb_spec (L i * nv) (L i * nv + (U i - L i) * nv)) as [_|K]; [|apply (Nat.lt_irrefl (L i * nv)), (Nat.le_lt_trans _ _ _ (Nat.le_add_r _ _) K)].
      destruct (Nat.leb_spec (L i * nv + (U i - L i) * nv) (length a)) as [|K]; [discriminate|].
      rewrite <- Nat.mul_add_distr_r in K. replace (L i + (U i - L i)) with (U i) in K by lia. nia.
  - rewrite bvals_length. pose proof (writes_combine 0 nc) as W. cbn [Nat.mul] in W. rewrite Nat.add_0_r in W. rewrite W. rewrite <- R3.
    assert (G : forall m, concat (map (fun i => concat (map (fun c => map (wr c) (seq 0 nf)) (seq (L i) (U i - L i)))) (seq 0 m)) =
                concat (map (fun c => map (wr c) (seq 0 nf)) (seq 0 (L m)))); [|apply G].
    induction m as [|m IH]; [rewrite R0; reflexivity|]. rewrite seq_S, map_app, concat_app, IH. cbn [map concat]. rewrite app_nil_r.
    rewrite <- concat_app, <- map_app. f_equal. f_equal. rewrite <- R1. specialize (R2 m).
    pose proof (seq_app (L m) (U m - L m) 0) as SA. cbn [plus] in SA |- *. rewrite <- SA. f_equal. clear - R2. lia.
Qed.
End Block.

Lemma seq_cut n p j q : seq 0 n = p ++ j :: q -> p = seq 0 (length p) /\ j = length p /\ j < n.
Proof.
  intro E. assert (Hl : n = length p + S (length q)) by (rewrite <- (seq_length n 0), E, app_length; reflexivity).
  assert (Hj : j = length p).
  { assert (H : nth_error (seq 0 n) (length p) = Some j) by (rewrite E, nth_error_app2, Nat.sub_diag by lia; reflexivity).
    rewrite nth_error_seq in H by lia. injection H. lia. }
  split; [|lia]. apply nth_error_ext. intro i. destruct (Nat.lt_ge_cases i (length p)) as [Hi|Hi].
  - rewrite nth_error_seq by exact Hi. assert (H : nth_error (seq 0 n) i = nth_error p i) by (rewrite E, nth_error_app1 by exact Hi; reflexivity).
    rewrite <- H, nth_error_seq by lia. reflexivity.
  - transitivity (@None nat); [|symmetry]; apply nth_error_None; rewrite ?seq_length; lia.
Qed.

(** ** All blocks *)
Section Blocks.
Variables (ts : list cell_type) (arrs : list (list Z)) (w : nat).
Definition co_of (j : nat) : nat := num_cells (firstn j ts) (firstn j arrs).
Definition block_vals (j : nat) : list frow :=
  match nth_error ts j, nth_error arrs j with Some t, Some a => bvals t a w (co_of j) 0 (block_cells t a) | _, _ => [] end.
Definition all_vals : list frow := concat (map block_vals (seq 0 (length arrs))).
Definition infos : list (nat * (list (list nat) * nat)) := map (fun ta => (verts (fst ta), (facets (fst ta), block_cells (fst ta) (snd ta)))) (combine ts arrs).

Hypothesis Hlen : length ts = length arrs.
Hypothesis Hdim : Forall (fun t => 0 < cell_dim t) ts.
Hypothesis Hw : forall t fv, In t ts -> In fv (facets t) -> length fv <= w.
Variables (sched : nat -> list (nat * frow) -> list (nat * frow)) (threads : nat).
Hypothesis Hsched : forall j l, Permutation (sched j l) l.
Hypothesis Ht : 0 < threads.

Lemma combine_firstn {X Y} n (l : list X) (m : list Y) : combine (firstn n l) (firstn n m) = firstn n (combine l m).
Proof. revert l m. induction n as [|n IH]; intros [|x l] [|y m]; cbn; auto. now rewrite IH. Qed.
Lemma nth_combine {X Y} (l : list X) (m : list Y) j x y : nth_error l j = Some x -> nth_error m j = Some y -> nth_error (combine l m) j = Some (x, y).
Proof. revert l m. induction j as [|j IH]; intros [|u l] [|v m]; cbn; intros E F; try discriminate; [congruence|auto]. Qed.
Lemma block_vals_len j t a : nth_error ts j = Some t -> nth_error arrs j = Some a -> length (block_vals j) = length (facets t) * block_cells t a.
Proof. intros Et Ea. unfold block_vals. rewrite Et, Ea, bvals_length. lia. Qed.
Lemma nth_infos j t a : nth_error ts j = Some t -> nth_error arrs j = Some a -> nth_error infos j = Some (verts t, (facets t, block_cells t a)).
Proof. intros Et Ea. unfold infos. rewrite nth_error_map_some, (nth_combine _ _ _ _ _ Et Ea). reflexivity. Qed.
Lemma infos_length : length infos = length arrs.
Proof. unfold infos. rewrite map_length, combine_length. lia. Qed.
Lemma blocks_at j : j < length arrs -> exists t a, nth_error ts j = Some t /\ nth_error arrs j = Some a.
Proof. clear Ht. intro H. destruct (nth_error_lt ts j) as (t & Et); [lia|]. destruct (nth_error_lt arrs j H) as (a & Ea). eauto. Qed.
Lemma co_ok j : j < length arrs -> nth_error (psums (map (fun i => snd (snd i)) infos)) j = Some (co_of j).
Proof.
  intro H. rewrite psums_nth by (rewrite map_length, infos_length; lia). f_equal. unfold co_of, num_cells, infos.
  rewrite combine_firstn, map_map, <- firstn_map. reflexivity.
Qed.
Lemma lens_ok n : n <= length arrs -> firstn n (map (fun i => length (fst (snd i)) * snd (snd i)) infos) = map (fun j => length (block_vals j)) (seq 0 n).
Proof.
  intro H. apply nth_error_ext. intro j. destruct (Nat.lt_ge_cases j n) as [Hj|Hj].
  - rewrite nth_error_firstn by exact Hj. rewrite !nth_error_map_some. rewrite nth_error_seq by exact Hj. cbn [option_map plus].
    destruct (blocks_at j) as (t & a & Et & Ea); [lia|]. rewrite (nth_infos j t a Et Ea), (block_vals_len j t a Et Ea). reflexivity.
  - transitivity (@None nat); [|symmetry]; apply nth_error_None; [rewrite firstn_length, map_length|rewrite map_length, seq_length]; lia.
Qed.
Lemma fo_ok j : j <= length arrs -> nth_error (psums (map (fun i => length (fst (snd i)) * snd (snd i)) infos)) j = Some (length (concat (map block_vals (seq 0 j)))).
Proof.
  intro H. rewrite psums_nth by (rewrite map_length, infos_length; lia). f_equal. rewrite (lens_ok j H), <- lsum_concat_length, map_map. reflexivity.
Qed.

Lemma storage_ok : facet_storage sched threads w infos arrs = Some all_vals.
Proof.
  unfold facet_storage. rewrite last_psums.
  assert (Tot : lsum (map (fun i => length (fst (snd i)) * snd (snd i)) infos) = length all_vals).
  { rewrite <- (firstn_all (map _ infos)), map_length, infos_length, (lens_ok _ (le_n _)). unfold all_vals. rewrite <- lsum_concat_length, map_map. reflexivity. }
  rewrite Tot.
  match goal with |- ofold ?f ?l ?s = _ => 
    destruct (@ofold_prefix_ind _ _ f (fun p mem => mem = concat (map block_vals p) ++ repeat ([], 0) (length all_vals - length (concat (map block_vals p)))) l s) as (st & Hr & Hi) end.
  - cbn [map concat app]. f_equal. cbn. lia.
  - intros p j q mem E HI. subst mem. 
    assert (Ep : p = seq 0 (length p) /\ j = length p /\ j < length arrs).
    { exact (seq_cut _ _ _ _ E). }
    destruct Ep as (Ep & Ej & Hj). destruct (blocks_at j Hj) as (t & a & Et & Ea).
    rewrite (nth_infos j t a Et Ea), Ea, (co_ok j Hj), (fo_ok j) by lia. cbn [obind fst snd].
    assert (Dt : 0 < cell_dim t) by (rewrite Forall_forall in Hdim; apply Hdim; eapply nth_error_In; exact Et).
    destruct (thread_writes_ok t a w (co_of j) (length (concat (map block_vals (seq 0 j)))) Dt (fun fv => Hw t fv (nth_error_In _ _ Et)) threads Ht) as (ws & Ew & Ec).
    rewrite Ew. cbn [obind].
    assert (Eb : bvals t a w (co_of j) 0 (block_cells t a) = block_vals j) by (unfold block_vals; now rewrite Et, Ea). rewrite Eb in Ec.
    replace (seq 0 j) with p in * by (rewrite Ep at 1; now rewrite Ej).
    eexists. split; [|reflexivity]. rewrite map_app, concat_app. cbn [map concat]. rewrite app_nil_r, app_length, <- app_assoc.
    assert (Hle : length (concat (map block_vals p)) + length (block_vals j) <= length all_vals).
    { unfold all_vals. rewrite E. rewrite map_app, concat_app. cbn [map concat]. rewrite !app_length. lia. }
    replace (length all_vals - length (concat (map block_vals p))) with (length (block_vals j) + (length all_vals - (length (concat (map block_vals p)) + length (block_vals j)))) by lia.
    rewrite repeat_app. apply scatter; [|apply repeat_length]. rewrite (Hsched j (concat ws)), Ec. reflexivity.
  - rewrite Hr. f_equal. rewrite Hi. fold all_vals. rewrite Nat.sub_diag. cbn. apply app_nil_r.
Qed.
End Blocks.
