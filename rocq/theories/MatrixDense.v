(** Proofs about the dense copy and the expanded form of a CSR matrix. *)
From Verif Require Import Base BaseProofs BucketProofs Algo AlgoProofs IndexMap IndexMapProofs ImSharedProofs ScattererProofs MatrixCSR MatrixSpec MatrixProofs.
From Verif Require StackProofs.

Lemma vals_not_in {V} k (l : list (nat * V)) : (forall v, ~ In (k, v) l) -> vals k l = [].
Proof.
  intro H. destruct (vals k l) as [|v t] eqn:E; [reflexivity|]. exfalso. apply (H v). apply vals_in. rewrite E. now left.
Qed.

Section ToDense.
Context {T : Type} (zero : T).
Definition put : T -> T -> T := fun _ v => v.

Lemma upd_as_op (D : list T) p v : upd D p v = apply_op put D p v.
Proof.
  unfold apply_op, put. destruct (nth_error D p) as [y|] eqn:E; cbn [obind]; [reflexivity|].
  destruct (upd D p v) as [D'|] eqn:E'; [|reflexivity]. apply nth_error_None in E. apply upd_bound in E'. lia.
Qed.

Section Fixed.
Variables (rows : list (list nat)) (bs0 bs1 : nat) (data : list T) (m1 : imap).
Hypothesis H0 : 0 < bs0.
Hypothesis H1 : 0 < bs1.
Hypothesis Hs : Forall (StronglySorted lt) rows.
Hypothesis Hd : length data = length (concat rows) * bs0 * bs1.
Hypothesis Hg : forall c, In c (concat rows) -> exists g, local_to_global m1 c = Some g /\ g < im_size_global m1.
Hypothesis Hinj : forall c c' g, local_to_global m1 c = Some g -> local_to_global m1 c' = Some g -> c = c'.
Notation W := (im_size_global m1 * bs1).
Notation R := (R rows).
Definition gl c := match local_to_global m1 c with Some g => g | None => 0 end.

Lemma in_R_concat i c : In c (R i) -> In c (concat rows).
Proof.
  intro H. pose proof (in_R_lt rows i c H). apply in_concat. exists (R i). split; [|exact H]. apply nth_In. exact H2.
Qed.
Lemma gl_ok c : In c (concat rows) -> local_to_global m1 c = Some (gl c) /\ gl c < im_size_global m1.
Proof. intro H. destruct (Hg c H) as (g & E & L). unfold gl. rewrite E. auto. Qed.

Definition cell r k i0 i1 : nat * T :=
  ((r * bs0 + i0) * W + (gl (nth k (R r) 0) * bs1 + i1), nth (((off rows r + k) * bs0 + i0) * bs1 + i1) data zero).
Definition U4 r k i0 := map (cell r k i0) (seq 0 bs1).
Definition U3 r k := concat (map (U4 r k) (seq 0 bs0)).
Definition U2 r := concat (map (U3 r) (seq 0 (length (R r)))).
Definition U1 := concat (map U2 (seq 0 (length rows))).

Lemma in_U4 r k i0 q v : In (q, v) (U4 r k i0) -> exists i1, i1 < bs1 /\ (q, v) = cell r k i0 i1.
Proof. unfold U4. intro H. apply in_map_iff in H as (i1 & E & Hi). apply in_seq in Hi. exists i1. split; [lia|now symmetry]. Qed.
Lemma in_U3 r k q v : In (q, v) (U3 r k) -> exists i0, i0 < bs0 /\ In (q, v) (U4 r k i0).
Proof. unfold U3. intro H. apply in_concat in H as (l & Hl & H). apply in_map_iff in Hl as (i0 & <- & Hi). apply in_seq in Hi. exists i0. split; [lia|exact H]. Qed.
Lemma in_U2 r q v : In (q, v) (U2 r) -> exists k, k < length (R r) /\ In (q, v) (U3 r k).
Proof. unfold U2. intro H. apply in_concat in H as (l & Hl & H). apply in_map_iff in Hl as (i0 & <- & Hi). apply in_seq in Hi. exists i0. split; [lia|exact H]. Qed.
Lemma in_U1 q v : In (q, v) U1 -> exists r, r < length rows /\ In (q, v) (U2 r).
Proof. unfold U1. intro H. apply in_concat in H as (l & Hl & H). apply in_map_iff in Hl as (i0 & <- & Hi). apply in_seq in Hi. exists i0. split; [lia|exact H]. Qed.

Lemma gl_nth r k : k < length (R r) -> local_to_global m1 (nth k (R r) 0) = Some (gl (nth k (R r) 0)) /\ gl (nth k (R r) 0) < im_size_global m1.
Proof. intro H. apply gl_ok. apply (in_R_concat r). now apply nth_In. Qed.

Lemma data_lt r k i0 i1 : r < length rows -> k < length (R r) -> i0 < bs0 -> i1 < bs1 -> ((off rows r + k) * bs0 + i0) * bs1 + i1 < length data.
Proof.
  intros Hr Hk Hi0 Hi1. rewrite Hd.
  assert (off rows r + k < length (concat rows)).
  { eapply nth_error_bound. unfold off. rewrite (nth_error_concat rows r (R r)); [now apply (nth_error_nth_some _ _ 0)|now apply nth_error_nth_some|exact Hk]. }
  assert ((off rows r + k) * bs0 + i0 + 1 <= length (concat rows) * bs0) by nia. nia.
Qed.

Lemma cell_lt r k i0 i1 : r < length rows -> k < length (R r) -> i0 < bs0 -> i1 < bs1 -> fst (cell r k i0 i1) < length rows * bs0 * W.
Proof.
  intros Hr Hk Hi0 Hi1. unfold cell. cbn [fst]. destruct (gl_nth r k Hk) as (_ & Hl).
  assert (r * bs0 + i0 + 1 <= length rows * bs0) by nia.
  assert (gl (nth k (R r) 0) * bs1 + i1 < W) by nia.
  assert ((r * bs0 + i0 + 1) * W <= length rows * bs0 * W) by (apply Nat.mul_le_mono_r; lia). lia.
Qed.

Lemma cell_key r k i0 i1 I G : k < length (R r) -> i0 < bs0 -> i1 < bs1 -> G < W -> fst (cell r k i0 i1) = I * W + G ->
  r = I / bs0 /\ i0 = I mod bs0 /\ gl (nth k (R r) 0) = G / bs1 /\ i1 = G mod bs1.
Proof.
  intros Hk Hi0 Hi1 HG. unfold cell. cbn [fst]. intro E. destruct (gl_nth r k Hk) as (_ & Hl).
  apply block_inj in E as (EI & EG); [|nia|exact HG].
  assert (I mod bs0 < bs0) by (apply Nat.mod_upper_bound; lia). assert (G mod bs1 < bs1) by (apply Nat.mod_upper_bound; lia).
  rewrite (Nat.div_mod_eq I bs0), (Nat.mul_comm bs0) in EI. rewrite (Nat.div_mod_eq G bs1), (Nat.mul_comm bs1) in EG.
  apply block_inj in EI; auto. apply block_inj in EG; auto. tauto.
Qed.

Lemma to_dense_runs : to_dense zero (mkCSR bs0 bs1 (concat rows) (psums (map (@length nat) rows)) data) m1 =
  ofold (upd1 put) U1 (repeat zero (length rows * im_size_global m1 * bs0 * bs1)).
Proof.
  unfold to_dense. cbn [mt_rp mt_cols mt_bs0 mt_bs1 mt_data]. rewrite psums_length, map_length.
  replace (S (length rows) - 1) with (length rows) by lia.
  generalize (repeat zero (length rows * im_size_global m1 * bs0 * bs1)). apply (runs_nested put). intros r Hr D. apply in_seq in Hr.
  rewrite (rp_nth rows r), (rp_nth rows (S r)) by lia. cbn [obind].
  assert (El : off rows (S r) = off rows r + length (R r)).
  { unfold off. rewrite (lsum_firstn_S _ _ (length (R r))); [reflexivity|].
    rewrite nth_error_map_some, (nth_error_nth_some rows r []) by lia. reflexivity. }
  rewrite El. replace (off rows r + length (R r) - off rows r) with (length (R r)) by lia.
  assert (Es : seq (off rows r) (length (R r)) = map (fun k => off rows r + k) (seq 0 (length (R r)))).
  { clear. generalize (off rows r), (length (R r)). intros a n. revert a. induction n as [|n IH]; intro a; [reflexivity|].
    cbn [seq map]. rewrite Nat.add_0_r. f_equal. rewrite IH, <- seq_shift, map_map. apply map_ext. intro; lia. }
  rewrite Es, StackProofs.ofold_map. revert D. apply (runs_nested put). intros k Hk D. apply in_seq in Hk.
  revert D. apply (runs_nested put). intros i0 Hi0. apply in_seq in Hi0. apply (runs_flat put). intros i1 D Hi1.
  assert (Ec : nth_error (concat rows) (off rows r + k) = Some (nth k (R r) 0)).
  { unfold off. rewrite (nth_error_concat rows r (R r)); [|apply nth_error_nth_some; lia|lia]. apply nth_error_nth_some; lia. }
  rewrite Ec. cbn [obind]. destruct (gl_nth r k ltac:(lia)) as (-> & Hl). cbn [obind].
  pose proof (data_lt r k i0 i1 ltac:(lia) ltac:(lia) ltac:(lia) Hi1) as Hb.
  replace ((off rows r + k) * bs0 * bs1 + i0 * bs1 + i1) with (((off rows r + k) * bs0 + i0) * bs1 + i1) by lia.
  rewrite (nth_error_nth_some data _ zero Hb). cbn [obind]. rewrite upd_as_op. unfold upd1, cell. cbn [fst snd]. f_equal. lia.
Qed.

Lemma U1_hit I c k G : index_in c (R (I / bs0)) = Some k -> local_to_global m1 c = Some (G / bs1) -> G < W ->
  vals (I * W + G) U1 = [nth (((off rows (I / bs0) + k) * bs0 + I mod bs0) * bs1 + G mod bs1) data zero].
Proof.
  intros Hk Hc HG. apply index_in_some in Hk. pose proof (nth_error_bound _ _ _ Hk) as Lk.
  assert (Lr : I / bs0 < length rows) by (eapply in_R_lt, nth_error_In, Hk).
  assert (I mod bs0 < bs0) by (apply Nat.mod_upper_bound; lia). assert (G mod bs1 < bs1) by (apply Nat.mod_upper_bound; lia).
  assert (Ek : nth k (R (I / bs0)) 0 = c) by (now apply nth_error_nth).
  unfold U1. rewrite vals_concat, map_map, (concat_single _ _ (I / bs0)); [|apply seq_NoDup|apply in_seq; lia|].
  2:{ intros r Hr Hne. apply vals_not_in. intros v Hv. apply in_U2 in Hv as (k' & Hk' & Hv). apply in_U3 in Hv as (i0 & Hi0 & Hv).
      apply in_U4 in Hv as (i1 & Hi1 & E). apply (f_equal fst) in E. symmetry in E. apply cell_key in E; auto. tauto. }
  unfold U2. rewrite vals_concat, map_map, (concat_single _ _ k); [|apply seq_NoDup|apply in_seq; lia|].
  2:{ intros k' Hk' Hne. apply in_seq in Hk'. apply vals_not_in. intros v Hv. apply in_U3 in Hv as (i0 & Hi0 & Hv).
      apply in_U4 in Hv as (i1 & Hi1 & E). apply (f_equal fst) in E. symmetry in E. apply cell_key in E as (_ & _ & E & _); auto; [|lia].
      apply Hne. destruct (gl_nth (I / bs0) k' ltac:(lia)) as (E' & _). rewrite E in E'.
      pose proof (Hinj _ _ _ E' Hc) as Ec. apply (NoDup_nth_error_inj (R (I / bs0)) _ _ c); [apply SS_lt_NoDup, R_sorted, Hs| |exact Hk].
      rewrite <- Ec. apply nth_error_nth_some. lia. }
  unfold U3. rewrite vals_concat, map_map, (concat_single _ _ (I mod bs0)); [|apply seq_NoDup|apply in_seq; lia|].
  2:{ intros i0 Hi0 Hne. apply in_seq in Hi0. apply vals_not_in. intros v Hv.
      apply in_U4 in Hv as (i1 & Hi1 & E). apply (f_equal fst) in E. symmetry in E. apply cell_key in E as (_ & E & _); auto; try lia; tauto. }
  unfold U4, cell. rewrite vals_map_filter, (filter_single _ _ (G mod bs1)); [reflexivity|apply seq_NoDup|apply in_seq; lia| |].
  - apply Nat.eqb_eq. rewrite Ek. unfold gl. rewrite Hc.
    pose proof (Nat.div_mod_eq I bs0). pose proof (Nat.div_mod_eq G bs1). f_equal; [f_equal; lia|lia].
  - intros i1 Hi1 E. apply in_seq in Hi1. apply Nat.eqb_eq in E.
    pose proof (cell_key (I / bs0) k (I mod bs0) i1 I G Lk ltac:(lia) ltac:(lia) HG) as C. unfold cell in C. cbn [fst] in C. apply C in E. tauto.
Qed.

Lemma U1_miss I G : (forall c, local_to_global m1 c = Some (G / bs1) -> ~ In c (R (I / bs0))) -> G < W -> vals (I * W + G) U1 = [].
Proof.
  intros Hn HG. apply vals_not_in. intros v Hv. apply in_U1 in Hv as (r & Hr & Hv). apply in_U2 in Hv as (k' & Hk' & Hv).
  apply in_U3 in Hv as (i0 & Hi0 & Hv). apply in_U4 in Hv as (i1 & Hi1 & E). apply (f_equal fst) in E. symmetry in E.
  apply cell_key in E as (-> & _ & E & _); auto. destruct (gl_nth (I / bs0) k' Hk') as (E' & _). rewrite E in E'.
  apply (Hn _ E'). apply nth_In. exact Hk'.
Qed.

Lemma to_dense_fixed : let A := mkCSR bs0 bs1 (concat rows) (psums (map (@length nat) rows)) data in
  exists D, to_dense zero A m1 = Some D /\ length D = length rows * bs0 * W /\
    forall I G, I < length rows * bs0 -> G < W -> exists v, nth_error D (I * W + G) = Some v /\
      (forall c, local_to_global m1 c = Some (G / bs1) -> v = dense zero A I (c * bs1 + G mod bs1)) /\
      ((forall c, local_to_global m1 c <> Some (G / bs1)) -> v = zero).
Proof.
  cbv zeta. rewrite to_dense_runs.
  set (Z := repeat zero (length rows * im_size_global m1 * bs0 * bs1)).
  assert (LZ : length Z = length rows * bs0 * W) by (unfold Z; rewrite repeat_length; lia).
  destruct (updates_ok put U1 Z) as (D & ED & LD & HD).
  { intros p v Hv. apply in_U1 in Hv as (r & Hr & Hv). apply in_U2 in Hv as (k' & Hk' & Hv).
    apply in_U3 in Hv as (i0 & Hi0 & Hv). apply in_U4 in Hv as (i1 & Hi1 & E). apply (f_equal fst) in E. cbn [fst] in E. subst p.
    rewrite LZ. now apply cell_lt. }
  exists D. split; [exact ED|]. split; [lia|]. intros I G HI HG.
  assert (Hq : nth_error Z (I * W + G) = Some zero).
  { unfold Z. apply nth_error_repeat. rewrite <- (repeat_length zero (length rows * im_size_global m1 * bs0 * bs1)). fold Z. rewrite LZ.
    assert ((I + 1) * W <= length rows * bs0 * W) by (apply Nat.mul_le_mono_r; lia). lia. }
  apply HD in Hq. eexists. split; [exact Hq|]. assert (G mod bs1 < bs1) by (apply Nat.mod_upper_bound; lia). split.
  - intros c Hc. rewrite dense_off by assumption. rewrite Nat.div_add_l, (Nat.div_small (G mod bs1)), Nat.add_0_r by lia.
    replace ((c * bs1 + G mod bs1) mod bs1) with (G mod bs1) by (rewrite Nat.add_comm, Nat.mod_add, (Nat.mod_small (G mod bs1)); lia).
    destruct (index_in c (R (I / bs0))) as [k|] eqn:Ek.
    + rewrite (U1_hit I c k G Ek Hc HG). reflexivity.
    + rewrite U1_miss; [reflexivity| |exact HG]. intros c' Hc' Hin. rewrite (Hinj _ _ _ Hc' Hc) in Hin.
      apply index_in_in in Hin as (k & Hk). congruence.
  - intro Hn. rewrite U1_miss; [reflexivity| |exact HG]. intros c Hc. now destruct (Hn c).
Qed.
End Fixed.

End ToDense.

(** * The expanded form *)
Section Expanded.
Context {T : Type} (zero : T).
Variables (bs0 bs1 : nat) (rows : list (list nat)) (offdiag : list nat).
Hypothesis H0 : 0 < bs0.
Hypothesis H1 : 0 < bs1.
Hypothesis Hs : Forall (StronglySorted lt) rows.
Hypothesis Ho : length offdiag = length rows.
Notation edges := (concat rows).
Notation offsets := (psums (map (@length nat) rows)).

Definition expand (row : list nat) : list nat := concat (map (fun c => map (fun q => c * bs1 + q) (seq 0 bs1)) row).
Definition items : list nat := concat (map (fun i => map (fun _ => i) (seq 0 bs0)) (seq 0 (length rows))).
Definition exrows : list (list nat) := map (fun i => expand (R rows i)) items.

Lemma expand_in row J : In J (expand row) <-> In (J / bs1) row.
Proof.
  clear - H1.
  unfold expand. rewrite in_concat. split.
  - intros (l & Hl & HJ). apply in_map_iff in Hl as (c & <- & Hc). apply in_map_iff in HJ as (q & <- & Hq). apply in_seq in Hq.
    rewrite Nat.div_add_l, Nat.div_small, Nat.add_0_r by lia. exact Hc.
  - intro H. exists (map (fun q => J / bs1 * bs1 + q) (seq 0 bs1)). split; [apply in_map_iff; eauto|]. apply in_map_iff. exists (J mod bs1).
    split; [pose proof (Nat.div_mod_eq J bs1); lia|]. apply in_seq. assert (J mod bs1 < bs1) by (apply Nat.mod_upper_bound; lia). lia.
Qed.

Lemma expand_sorted row : StronglySorted lt row -> StronglySorted lt (expand row).
Proof.
  clear Ho offdiag.
  unfold expand. induction row as [|c t IH]; intro H; cbn [map concat]; [constructor|]. inversion_clear H as [|? ? Ht Hc].
  apply SS_app; [|now apply IH|].
  - clear. generalize (c * bs1) as a. intro a. generalize 0 as s. induction bs1 as [|n IH]; intro s; cbn [seq map]; [constructor|].
    constructor; [apply IH|]. apply Forall_forall. intros x Hx. apply in_map_iff in Hx as (q & <- & Hq). apply in_seq in Hq. lia.
  - intros x y Hx Hy. apply in_map_iff in Hx as (q & <- & Hq). apply in_seq in Hq.
    apply in_concat in Hy as (l & Hl & Hy). apply in_map_iff in Hl as (c' & <- & Hc'). apply in_map_iff in Hy as (q' & <- & Hq'). apply in_seq in Hq'.
    rewrite Forall_forall in Hc. specialize (Hc c' Hc'). nia.
Qed.

Lemma items_grid n : forall I, nth_error (concat (map (fun i => map (fun _ => i) (seq 0 bs0)) (seq 0 n))) I = if I <? n * bs0 then Some (I / bs0) else None.
Proof.
  clear Ho offdiag.
  intro I. destruct (Nat.ltb_spec I (n * bs0)) as [L|L].
  - assert (Lq : I / bs0 < n) by (apply Nat.div_lt_upper_bound; lia).
    pose proof (StackProofs.nth_concat (fun i : nat => map (fun _ : nat => i) (seq 0 bs0)) (seq 0 n) (I / bs0) (I / bs0) (I mod bs0)) as E.
    cbv beta in E. rewrite map_length, seq_length in E. specialize (E (nth_error_seq 0 n _ Lq)).
    assert (I mod bs0 < bs0) by (apply Nat.mod_upper_bound; lia). specialize (E H).
    rewrite nth_error_map_some, nth_error_seq in E by exact H. cbn in E. rewrite <- E. f_equal.
    assert (G : forall m k, k <= m -> lsum (firstn k (map (fun i : nat => length (map (fun _ : nat => i) (seq 0 bs0))) (seq 0 m))) = k * bs0).
    { clear. intros m k. assert (G : forall m s k, k <= m -> lsum (firstn k (map (fun i : nat => length (map (fun _ : nat => i) (seq 0 bs0))) (seq s m))) = k * bs0).
      { clear. induction m as [|m IH]; intros s [|k] Hk; try reflexivity; [lia|]. cbn [seq map firstn]. rewrite lsum_cons, IH by lia.
        rewrite map_length, seq_length. lia. }
      apply G. }
    rewrite G by lia. pose proof (Nat.div_mod_eq I bs0). lia.
  - apply nth_error_None. rewrite <- lsum_concat_length, map_map.
    rewrite (map_ext _ (fun _ => bs0)) by (intro; now rewrite map_length, seq_length).
    assert (G : forall s, lsum (map (fun _ : nat => bs0) (seq s n)) = n * bs0).
    { clear. induction n as [|n IH]; intro s; [reflexivity|]. cbn [seq map]. rewrite lsum_cons, IH. lia. }
    rewrite G. exact L.
Qed.

Lemma exrows_R I : R exrows I = expand (R rows (I / bs0)).
Proof.
  clear Ho offdiag.
  unfold R at 1, exrows. destruct (lt_dec I (length rows * bs0)) as [L|L].
  - apply nth_error_nth. rewrite nth_error_map_some. unfold items. rewrite items_grid.
    replace (I <? length rows * bs0) with true by (symmetry; now apply Nat.ltb_lt). reflexivity.
  - rewrite nth_overflow.
    + unfold R. rewrite nth_overflow; [reflexivity|]. apply Nat.div_le_lower_bound; lia.
    + rewrite map_length. apply nth_error_None. unfold items. rewrite items_grid.
      replace (I <? length rows * bs0) with false by (symmetry; apply Nat.ltb_ge; lia). reflexivity.
Qed.

Lemma exrows_length : length exrows = length rows * bs0.
Proof.
  clear Ho offdiag.
  unfold exrows. rewrite map_length. destruct (Nat.lt_trichotomy (length items) (length rows * bs0)) as [L|[L|L]]; [exfalso|exact L|exfalso].
  - pose proof (items_grid (length rows) (length items)) as E. fold items in E.
    rewrite (proj2 (nth_error_None items (length items))) in E by lia.
    replace (length items <? length rows * bs0) with true in E by (symmetry; now apply Nat.ltb_lt). discriminate.
  - pose proof (items_grid (length rows) (length rows * bs0)) as E. fold items in E. rewrite Nat.ltb_irrefl in E. apply nth_error_None in E. lia.
Qed.

Lemma exrows_sorted : Forall (StronglySorted lt) exrows.
Proof.
  clear Ho offdiag.
  unfold exrows. apply Forall_forall. intros l Hl. apply in_map_iff in Hl as (i & <- & _). apply expand_sorted, R_sorted, Hs.
Qed.

Lemma expanded_fold : csr_expanded zero bs0 bs1 edges offsets offdiag =
  Some (mkCSR 1 1 (concat exrows) (psums (map (@length nat) exrows)) (repeat zero (length edges * bs0 * bs1)),
        map (fun I => off exrows I + nth (I / bs0) offdiag 0 * bs1) (seq 0 (length rows * bs0))).
Proof.
  unfold csr_expanded. rewrite psums_length, map_length. replace (S (length rows) - 1) with (length rows) by lia.
  set (step := fun st i => nd <- nth_error offdiag i ;; cols <- slice_at edges offsets i ;;
            Some (mkExp (ex_cols st ++ expand cols) (ex_rp st ++ [length (ex_cols st ++ expand cols)]) (ex_off st ++ [last (ex_rp st) 0 + nd * bs1]))).
  assert (E : ofold (fun st i => ofold (fun st (_ : nat) => step st i) (seq 0 bs0) st) (seq 0 (length rows)) (mkExp [] [0] [])
            = ofold step items (mkExp [] [0] [])).
  { unfold items. rewrite <- StackProofs.ofold_nested. apply ofold_ext. intros s i _. now rewrite StackProofs.ofold_map. }
  unfold step in E at 1. unfold expand in E at 1 2. cbv zeta. rewrite E.
  assert (Hi : forall i, In i items -> i < length rows).
  { intros i Hi. unfold items in Hi. apply in_concat in Hi as (l & Hl & Hi). apply in_map_iff in Hl as (j & <- & Hj).
    apply in_map_iff in Hi as (_ & <- & _). apply in_seq in Hj. lia. }
  destruct (ofold_prefix_ind step (fun p st => ex_cols st = concat (map (fun i => expand (R rows i)) p) /\
      ex_rp st = psums (map (@length nat) (map (fun i => expand (R rows i)) p)) /\ length (ex_off st) = length p /\
      forall I, I < length p -> nth_error (ex_off st) I = Some (off exrows I + nth (I / bs0) offdiag 0 * bs1))
    items (mkExp [] [0] [])) as (st & Est & I1 & I2 & I3 & I4).
  - cbn. split; [reflexivity|]. split; [reflexivity|]. split; [reflexivity|]. intros; lia.
  - intros p i q st Hl (I1 & I2 & I3 & I4). assert (Hin : i < length rows) by (apply Hi; rewrite Hl, in_app_iff; right; now left).
    unfold step. destruct (nth_error_lt offdiag i) as (nd & End); [lia|]. rewrite End. cbn [obind]. rewrite slice_row by exact Hin. cbn [obind].
    eexists. split; [reflexivity|]. cbn [ex_cols ex_rp ex_off]. split; [|split; [|split]].
    + rewrite I1, map_app, concat_app. cbn [map concat]. now rewrite app_nil_r.
    + rewrite I2, I1, !map_app. cbn [map]. rewrite psums_snoc. f_equal. f_equal. rewrite app_length. f_equal. symmetry. apply lsum_concat_length.
    + rewrite !app_length, I3. reflexivity.
    + rewrite app_length. cbn [length]. intros I HI. destruct (lt_dec I (length p)) as [L|L].
      * rewrite nth_error_app1 by lia. now apply I4.
      * rewrite nth_error_app2 by lia. assert (I = length p) by lia. subst I. rewrite I3, Nat.sub_diag. cbn. f_equal. f_equal.
        -- rewrite I2, last_psums. unfold off, exrows. f_equal. rewrite Hl, !map_app, firstn_app.
           rewrite firstn_all2 by (rewrite !map_length; lia). rewrite !map_length, Nat.sub_diag. cbn. now rewrite app_nil_r.
        -- f_equal. assert (Ei : i = length p / bs0).
           { pose proof (items_grid (length rows) (length p)) as G. fold items in G. rewrite Hl, nth_error_app2, Nat.sub_diag in G by lia. cbn [nth_error] in G.
             destruct (length p <? length rows * bs0); congruence. }
           rewrite <- Ei. symmetry. now apply nth_error_nth.
  - rewrite Est. cbn [obind]. destruct st as [cs rps ofs]. cbn [ex_cols ex_rp ex_off] in *. subst cs rps.
    f_equal. f_equal. apply nth_error_ext. intro I. rewrite nth_error_map_some.
    assert (Ll : length items = length rows * bs0) by (rewrite <- exrows_length; unfold exrows; now rewrite map_length).
    destruct (lt_dec I (length rows * bs0)) as [L|L].
    + rewrite nth_error_seq by exact L. cbn. apply I4. lia.
    + rewrite !(proj2 (nth_error_None _ _)); [reflexivity|rewrite seq_length; lia|lia].
Qed.

Lemma exrows_total : length (concat exrows) = length edges * bs0 * bs1.
Proof.
  clear Ho offdiag.
  rewrite <- lsum_concat_length. unfold exrows, items. rewrite map_map.
  assert (El : forall row, length (expand row) = length row * bs1).
  { clear. intro row. unfold expand. rewrite <- lsum_concat_length, map_map. induction row as [|c t IH]; [reflexivity|].
    cbn [map]. rewrite lsum_cons, IH, map_length, seq_length. cbn. lia. }
  assert (G : forall l, lsum (map (fun i => length (expand (R rows i))) (concat (map (fun i => map (fun _ => i) (seq 0 bs0)) l)))
              = lsum (map (fun i => length (R rows i)) l) * bs0 * bs1).
  { clear - El. induction l as [|i t IH]; [reflexivity|]. cbn [map concat]. rewrite map_app, lsum_app, lsum_cons, IH, map_map.
    assert (K : forall s n, lsum (map (fun _ : nat => length (expand (R rows i))) (seq s n)) = n * length (R rows i) * bs1).
    { clear - El. intros s n. revert s. induction n as [|n IH]; intro s; [reflexivity|]. cbn [seq map]. rewrite lsum_cons, IH, El. lia. }
    rewrite K. lia. }
  rewrite G. f_equal. f_equal. rewrite <- lsum_concat_length. f_equal.
  apply nth_error_ext. intro i. rewrite !nth_error_map_some. destruct (lt_dec i (length rows)) as [L|L].
  - rewrite nth_error_seq by exact L. cbn. rewrite (nth_error_nth_some rows i [] L). reflexivity.
  - rewrite !(proj2 (nth_error_None _ _)); [reflexivity|lia|rewrite seq_length; lia].
Qed.
End Expanded.

Section Modes.
Context {T : Type} (zero : T) (add : T -> T -> T).

Lemma nth_repeat_zero n k : nth k (repeat zero n) zero = zero.
Proof. revert k. induction n as [|n IH]; intros [|k]; cbn; auto. Qed.

Lemma dense_repeat bs0 bs1 cols rp n I J : dense zero (mkCSR bs0 bs1 cols rp (repeat zero n)) I J = zero.
Proof.
  unfold dense. cbn. destruct (nth_error _ _); [|reflexivity]. destruct (slice_at _ _ _); [|reflexivity].
  destruct (index_in _ _); [|reflexivity]. apply nth_repeat_zero.
Qed.

Lemma modes_statement bs0 bs1 rows offdiag calls : 0 < bs0 -> 0 < bs1 -> Forall (StronglySorted lt) rows -> length offdiag = length rows ->
  let edges := concat rows in let offsets := psums (map (@length nat) rows) in
  let A := fst (csr_compact zero bs0 bs1 edges offsets offdiag) in
  (forall c, In c calls -> call_shape A c /\ call_inside A c) ->
  exists A' B offs B', mat_run add calls A = Some A' /\
    csr_expanded zero bs0 bs1 edges offsets offdiag = Some (B, offs) /\ mat_run add calls B = Some B' /\
    forall I J, dense zero A' I J = fold_left (dense_step zero add) calls (fun _ _ => zero) I J /\
                dense zero B' I J = dense zero A' I J.
Proof.
  intros H0 H1 Hs Ho edges offsets A Hc.
  assert (Hok : csr_ok A).
  { split; [exact H0|]. split; [exact H1|]. split; [exists rows; auto|]. cbn. now rewrite repeat_length. }
  destruct (run_calls_ok zero add calls A Hok Hc) as (A' & EA & _ & _ & _ & _ & _ & HA).
  pose proof (expanded_fold zero bs0 bs1 rows offdiag H0 H1 Ho) as EB.
  set (B := mkCSR 1 1 (concat (exrows bs0 bs1 rows)) (psums (map (@length nat) (exrows bs0 bs1 rows))) (repeat zero (length (concat rows) * bs0 * bs1))) in *.
  assert (HokB : csr_ok B).
  { split; [cbn; lia|]. split; [cbn; lia|]. split; [exists (exrows bs0 bs1 rows); split; [reflexivity|]; split; [reflexivity|]; now apply exrows_sorted|].
    cbn. rewrite repeat_length, exrows_total by assumption. lia. }
  assert (HcB : forall c, In c calls -> call_shape B c /\ call_inside B c).
  { intros c Hin. destruct (Hc c Hin) as ((S1 & S2 & S3 & S4 & S5) & Hi). split.
    - split; [exact S1|]. split; [exact S2|]. split; [exact S3|]. split; [|right; left; split; reflexivity].
      intros a Ha. specialize (S4 a Ha). unfold A, offsets in S4. cbn [mt_rp mt_bs0 fst csr_compact] in S4. cbn [mt_rp mt_bs0 B].
      rewrite psums_length, map_length in *. rewrite exrows_length by assumption. rewrite Nat.div_1_r.
      assert (c_row c a / bs0 < length rows) by lia. apply Nat.succ_lt_mono in S4. clear S4.
      assert (c_row c a < length rows * bs0); [|lia]. pose proof (Nat.div_mod_eq (c_row c a) bs0).
      assert (c_row c a mod bs0 < bs0) by (apply Nat.mod_upper_bound; lia). nia.
    - intros a b Ha Hb. specialize (Hi a b Ha Hb). unfold A, csr_compact, edges, offsets in Hi. cbn [fst] in Hi. rewrite in_pattern_R in Hi.
      unfold B. rewrite in_pattern_R, !Nat.div_1_r, exrows_R by assumption. now apply (expand_in bs1 H1). }
  destruct (run_calls_ok zero add calls B HokB HcB) as (B' & EB' & _ & _ & _ & _ & _ & HB).
  exists A', B. eexists. exists B'. split; [exact EA|]. split; [exact EB|]. split; [exact EB'|]. intros I J.
  assert (EqA : dense zero A' I J = fold_left (dense_step zero add) calls (fun _ _ => zero) I J).
  { rewrite HA. apply fold_dense_ext. intros. unfold A, csr_compact. cbn [fst]. apply dense_repeat. }
  split; [exact EqA|]. rewrite EqA, HB. apply fold_dense_ext. intros. apply dense_repeat.
Qed.

Lemma expanded_statement bs0 bs1 rows offdiag : 0 < bs0 -> 0 < bs1 -> Forall (StronglySorted lt) rows -> length offdiag = length rows ->
  let edges := concat rows in let offsets := psums (map (@length nat) rows) in
  let A := fst (csr_compact zero bs0 bs1 edges offsets offdiag) in
  exists B offs, csr_expanded zero bs0 bs1 edges offsets offdiag = Some (B, offs) /\ csr_ok B /\ mt_bs0 B = 1 /\ mt_bs1 B = 1 /\
    length (mt_rp B) = S (length rows * bs0) /\
    (forall I J, in_pattern B I J <-> in_pattern A I J) /\
    length offs = length rows * bs0 /\
    forall I nd, I < length rows * bs0 -> nth_error offdiag (I / bs0) = Some nd -> exists a, nth_error (mt_rp B) I = Some a /\ nth_error offs I = Some (a + nd * bs1).
Proof.
  intros H0 H1 Hs Ho edges offsets A. eexists. eexists. split; [apply expanded_fold; assumption|]. split; [|split; [reflexivity|split; [reflexivity|split; [|split; [|split]]]]].
  - split; [cbn; lia|]. split; [cbn; lia|]. split; [exists (exrows bs0 bs1 rows); split; [reflexivity|]; split; [reflexivity|]; now apply exrows_sorted|].
    cbn. rewrite repeat_length, exrows_total by assumption. unfold edges. lia.
  - cbn [mt_rp]. rewrite psums_length, map_length, exrows_length by assumption. reflexivity.
  - intros I J. unfold A, csr_compact, edges, offsets. cbn [fst]. rewrite !in_pattern_R, !Nat.div_1_r, exrows_R by assumption. now apply (expand_in bs1 H1).
  - now rewrite map_length, seq_length.
  - intros I nd HI Hnd. cbn [mt_rp]. exists (off (exrows bs0 bs1 rows) I). split; [apply rp_nth; rewrite exrows_length by assumption; lia|].
    rewrite nth_error_map_some, nth_error_seq by exact HI. cbn. f_equal. f_equal. f_equal. now apply nth_error_nth.
Qed.

Lemma to_dense_statement (A : csr T) (m1 : imap) : csr_ok A ->
  (forall c, In c (mt_cols A) -> exists g, local_to_global m1 c = Some g /\ g < im_size_global m1) ->
  (forall c c' g, local_to_global m1 c = Some g -> local_to_global m1 c' = Some g -> c = c') ->
  let height := (length (mt_rp A) - 1) * mt_bs0 A in
  let width := im_size_global m1 * mt_bs1 A in
  exists D, to_dense zero A m1 = Some D /\ length D = height * width /\
    forall I G, I < height -> G < width -> exists v, nth_error D (I * width + G) = Some v /\
      (forall c, local_to_global m1 c = Some (G / mt_bs1 A) -> v = dense zero A I (c * mt_bs1 A + G mod mt_bs1 A)) /\
      ((forall c, local_to_global m1 c <> Some (G / mt_bs1 A)) -> v = zero).
Proof.
  intros (H0 & H1 & (rows & Ec & Er & Hs) & Hd) Hg Hinj. destruct A as [b0 b1 cols rp data]. cbn [mt_bs0 mt_bs1 mt_cols mt_rp mt_data] in *. subst cols rp.
  rewrite psums_length, map_length. replace (S (length rows) - 1) with (length rows) by lia.
  apply (to_dense_fixed zero rows b0 b1 data m1); assumption.
Qed.
End Modes.
