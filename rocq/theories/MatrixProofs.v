(** Proofs about insertion into CSR matrices. *)
From Verif Require Import Base BaseProofs BucketProofs Algo AlgoProofs IndexMap IndexMapProofs ImSharedProofs ScattererProofs MatrixCSR MatrixSpec.
From Verif Require StackProofs.

(** * Sequences of updates *)
Section Updates.
Context {T : Type} (op : T -> T -> T).
Definition upd1 (data : list T) (pv : nat * T) : option (list T) := apply_op op data (fst pv) (snd pv).

Lemma updates_ok U : forall data, (forall p v, In (p, v) U -> p < length data) ->
  exists data', ofold upd1 U data = Some data' /\ length data' = length data /\
    forall q y, nth_error data q = Some y -> nth_error data' q = Some (fold_left op (vals q U) y).
Proof.
  induction U as [|[p v] U IH]; intros data Hb.
  - exists data. cbn. auto.
  - assert (Hp : p < length data) by (eapply Hb; now left).
    destruct (nth_error_lt data p Hp) as (y & Ey).
    destruct (upd_some data p (op y v) Hp) as (d1 & E1). pose proof (upd_length _ _ _ _ E1) as L1.
    destruct (IH d1) as (d' & E & L & H).
    { intros p' v' Hin. rewrite L1. eapply Hb. right; eauto. }
    exists d'. cbn [ofold]. unfold upd1 at 1, apply_op. cbn [fst snd]. rewrite Ey. cbn [obind]. rewrite E1. cbn [obind].
    split; [exact E|]. split; [lia|]. intros q z Hz. unfold vals. cbn [filter fst]. destruct (Nat.eqb_spec p q) as [<-|N].
    + rewrite Ey in Hz. injection Hz as <-. cbn [map snd fold_left]. apply H. eapply upd_nth_eq; eauto.
    + apply H. rewrite (upd_nth_neq _ _ _ _ _ E1 N). exact Hz.
Qed.
End Updates.

Lemma concat_nil {A B} (f : A -> list B) l : (forall x, In x l -> f x = []) -> concat (map f l) = [].
Proof.
  induction l as [|x t IH]; intro H; cbn; [reflexivity|]. rewrite (H x) by now left. cbn. apply IH. intros; apply H; now right.
Qed.

Lemma concat_seq_split {B} (f : nat -> list B) n m :
  concat (map f (seq 0 (n * m))) = concat (map (fun r => concat (map (fun i => f (r * m + i)) (seq 0 m))) (seq 0 n)).
Proof.
  induction n as [|n IH]; [reflexivity|].
  rewrite seq_S, map_app, concat_app, <- IH. replace (S n * m) with (n * m + m) by lia.
  rewrite seq_app, map_app, concat_app. f_equal. cbn [map concat Nat.add]. rewrite app_nil_r. f_equal.
  clear IH. generalize (n * m) as s. intro s.
  apply nth_error_ext. intro i. rewrite !nth_error_map_some.
  destruct (lt_dec i m) as [L|L]; [rewrite !nth_error_seq by exact L; reflexivity|].
  rewrite !(proj2 (nth_error_None _ _)); try (rewrite seq_length; lia). reflexivity.
Qed.

Lemma in_enum {A} (v : list A) i a : In (i, a) (enum v) <-> nth_error v i = Some a.
Proof.
  unfold enum. rewrite in_combine_nth. split.
  - intros (k & H1 & H2). pose proof (nth_error_bound _ _ _ H1) as Hb. rewrite seq_length in Hb.
    rewrite nth_error_seq in H1 by exact Hb. injection H1 as <-. exact H2.
  - intro H. exists i. split; [|exact H]. rewrite nth_error_seq by (eapply nth_error_bound; eauto). reflexivity.
Qed.

Lemma map_enum {A B} (f : nat * A -> B) (v : list A) d :
  map f (enum v) = map (fun i => f (i, nth i v d)) (seq 0 (length v)).
Proof.
  apply nth_error_ext. intro i. rewrite !nth_error_map_some. destruct (lt_dec i (length v)) as [L|L].
  - rewrite nth_error_seq by exact L. cbn.
    assert (H : nth_error (enum v) i = Some (i, nth i v d)).
    { unfold enum. clear f. rewrite (nth_error_nth' _ (0, d)); [|rewrite combine_length, seq_length; lia].
      rewrite combine_nth by (now rewrite seq_length). rewrite seq_nth by exact L. reflexivity. }
    rewrite H. reflexivity.
  - rewrite !(proj2 (nth_error_None _ _)); [reflexivity|rewrite seq_length; lia|].
    unfold enum. rewrite combine_length, seq_length. lia.
Qed.

(** * Positions in a CSR structure *)
Section Pos.
Variable rows : list (list nat).
Hypothesis Hs : Forall (StronglySorted lt) rows.
Notation cols := (concat rows).
Notation rp := (psums (map (@length nat) rows)).
Definition off i := lsum (firstn i (map (@length nat) rows)).
Definition R i := nth i rows [].
Definition idx i j := match index_in j (R i) with Some k => k | None => 0 end.
Definition pos i j := off i + idx i j.

Lemma R_sorted i : StronglySorted lt (R i).
Proof.
  unfold R. destruct (lt_dec i (length rows)) as [L|L]; [|rewrite nth_overflow by lia; constructor].
  rewrite Forall_forall in Hs. apply Hs, nth_In, L.
Qed.

Lemma slice_row i : i < length rows -> slice_at cols rp i = Some (R i).
Proof. intro H. apply slice_at_concat. now apply nth_error_nth_some. Qed.

Lemma rp_nth i : i <= length rows -> nth_error rp i = Some (off i).
Proof. intro H. apply psums_nth. now rewrite map_length. Qed.

Lemma slice_row_none i : length rows <= i -> slice_at cols rp i = None.
Proof.
  intro H. unfold slice_at. destruct (nth_error rp i) as [a|] eqn:E; [|reflexivity]. cbn [obind].
  rewrite (proj2 (nth_error_None rp (S i))) by (rewrite psums_length, map_length; lia). reflexivity.
Qed.

Lemma row_of_ok i : i < length rows -> row_of cols rp i = Some (off i, R i).
Proof.
  intro H. pose proof (slice_row i H) as E. unfold slice_at in E. unfold row_of.
  rewrite (rp_nth i), (rp_nth (S i)) in * by lia. cbn [obind] in *. rewrite E. reflexivity.
Qed.

Lemma row_of_none i : length rows <= i -> row_of cols rp i = None.
Proof.
  intro H. pose proof (slice_row_none i H) as E. unfold slice_at in E. unfold row_of.
  destruct (nth_error rp i); [|reflexivity]. cbn [obind] in *. destruct (nth_error rp (S i)); [|reflexivity]. cbn [obind] in *. now rewrite E.
Qed.

Lemma idx_ok i j : In j (R i) -> find_sorted (R i) j = Some (idx i j) /\ index_in j (R i) = Some (idx i j) /\ nth_error (R i) (idx i j) = Some j.
Proof.
  intro H. rewrite find_sorted_spec by apply R_sorted. destruct (index_in_in j _ H) as (k & E). unfold idx. rewrite E.
  split; [reflexivity|]. split; [reflexivity|]. now apply index_in_some.
Qed.

Lemma in_R_lt i j : In j (R i) -> i < length rows.
Proof. intro H. destruct (lt_dec i (length rows)) as [L|L]; [exact L|]. unfold R in H. rewrite nth_overflow in H by lia. destruct H. Qed.

Lemma pos_nth i j : In j (R i) -> nth_error cols (pos i j) = Some j.
Proof.
  intro H. destruct (idx_ok i j H) as (_ & _ & E). pose proof (in_R_lt i j H) as L. unfold pos, off.
  rewrite (nth_error_concat rows i (R i)); [exact E|now apply nth_error_nth_some|eapply nth_error_bound; eauto].
Qed.
Lemma pos_lt i j : In j (R i) -> pos i j < length cols.
Proof. intro H. eapply nth_error_bound, pos_nth, H. Qed.

Lemma pos_inj i j i' j' : In j (R i) -> In j' (R i') -> pos i j = pos i' j' -> i = i' /\ j = j'.
Proof.
  intros H H' E.
  assert (Ej : j = j') by (pose proof (pos_nth i j H) as A; rewrite E, (pos_nth i' j' H') in A; congruence). split; [|exact Ej].
  destruct (idx_ok i j H) as (_ & _ & A). destruct (idx_ok i' j' H') as (_ & _ & A').
  apply nth_error_bound in A, A'. pose proof (in_R_lt i j H) as L. pose proof (in_R_lt i' j' H') as L'. unfold pos, off in E.
  assert (G : forall a b, a < b -> b < length rows -> off a + length (R a) <= off b).
  { intros a b Hab Hb. unfold off. apply off_disjoint; [exact Hab|].
    rewrite nth_error_map_some, (nth_error_nth_some rows a []) by lia. reflexivity. }
  destruct (Nat.lt_trichotomy i i') as [Hl|[Hl|Hl]]; [|exact Hl|].
  - pose proof (G i i' Hl L'). unfold off in H0. lia.
  - pose proof (G i' i Hl L). unfold off in H0. lia.
Qed.

(** Consecutive columns of a row are stored consecutively. *)
Lemma SS_consecutive l c n k : StronglySorted lt l -> (forall j, j < n -> In (c + j) l) -> nth_error l k = Some c ->
  forall j, j < n -> nth_error l (k + j) = Some (c + j).
Proof.
  clear. intros Hs Hin Hk. induction j as [|j IH]; intro Hj; [now rewrite !Nat.add_0_r|].
  specialize (IH ltac:(lia)). specialize (Hin (S j) Hj). apply In_nth_error in Hin as (k' & Hk').
  assert (Hlt : k + j < k').
  { destruct (Nat.lt_trichotomy (k + j) k') as [Hl|[Hl|Hl]]; [exact Hl| |].
    - subst. rewrite IH in Hk'. injection Hk'. lia.
    - pose proof (SS_nth _ _ Hs _ _ _ _ Hl Hk' IH). lia. }
  destruct (Nat.eq_dec k' (k + S j)) as [->|N]; [exact Hk'|].
  destruct (nth_error_lt l (k + S j)) as (z & Hz); [apply nth_error_bound in Hk'; lia|].
  pose proof (SS_nth _ _ Hs _ _ _ _ (ltac:(lia) : k + j < k + S j) IH Hz).
  pose proof (SS_nth _ _ Hs _ _ _ _ (ltac:(lia) : k + S j < k') Hz Hk'). lia.
Qed.

Lemma pos_consecutive i c n : (forall j, j < n -> In (c + j) (R i)) -> forall j, j < n -> pos i (c + j) = pos i c + j.
Proof.
  intros H j Hj. assert (H0 : In c (R i)) by (specialize (H 0 ltac:(lia)); now rewrite Nat.add_0_r in H).
  destruct (idx_ok i c H0) as (_ & _ & E). destruct (idx_ok i (c + j) (H j Hj)) as (_ & _ & E').
  pose proof (SS_consecutive _ _ _ _ (R_sorted i) H E j Hj) as E2. unfold pos.
  assert (idx i (c + j) = idx i c + j) by (eapply NoDup_nth_error_inj; [apply SS_lt_NoDup, R_sorted|exact E'|exact E2]). lia.
Qed.
End Pos.

(** * Contributions of a call *)
Section Contribs.
Context {T : Type} (zero : T).
Lemma contribs_canon (c : call T) I J : 0 < c_bs0 c -> 0 < c_bs1 c ->
  contribs zero c I J =
  concat (map (fun r => concat (map (fun q =>
     if (nth r (c_rows c) 0 =? I / c_bs0 c) && (nth q (c_cols c) 0 =? J / c_bs1 c)
     then [nth ((r * c_bs0 c + I mod c_bs0 c) * c_width c + (q * c_bs1 c + J mod c_bs1 c)) (c_x c) zero] else [])
    (seq 0 (length (c_cols c))))) (seq 0 (length (c_rows c)))).
Proof.
  intros H0 H1. unfold contribs. unfold c_height. rewrite concat_seq_split. f_equal. apply map_ext_in. intros r Hr.
  assert (HI : I mod c_bs0 c < c_bs0 c) by (apply Nat.mod_upper_bound; lia).
  assert (HJ : J mod c_bs1 c < c_bs1 c) by (apply Nat.mod_upper_bound; lia).
  pose proof (Nat.div_mod_eq I (c_bs0 c)) as DI. pose proof (Nat.div_mod_eq J (c_bs1 c)) as DJ.
  assert (Er : forall i, i < c_bs0 c -> c_row c (r * c_bs0 c + i) = nth r (c_rows c) 0 * c_bs0 c + i).
  { intros i Hi. unfold c_row. rewrite Nat.div_add_l, Nat.div_small, Nat.add_0_r by lia.
    f_equal. rewrite Nat.add_comm, Nat.mod_add, Nat.mod_small; lia. }
  rewrite (concat_single _ _ (I mod c_bs0 c)).
  - rewrite Er by exact HI. change (seq 0 (c_width c)) with (seq 0 (length (c_cols c) * c_bs1 c)). rewrite concat_seq_split. f_equal. apply map_ext_in. intros q Hq.
    assert (Eq : forall i, i < c_bs1 c -> c_col c (q * c_bs1 c + i) = nth q (c_cols c) 0 * c_bs1 c + i).
    { intros i Hi. unfold c_col. rewrite Nat.div_add_l, Nat.div_small, Nat.add_0_r by lia.
      f_equal. rewrite Nat.add_comm, Nat.mod_add, Nat.mod_small; lia. }
    rewrite (concat_single _ _ (J mod c_bs1 c)).
    + rewrite Eq by exact HJ.
      assert (A : (nth r (c_rows c) 0 * c_bs0 c + I mod c_bs0 c =? I) = (nth r (c_rows c) 0 =? I / c_bs0 c)).
      { apply Bool.eq_iff_eq_true. rewrite !Nat.eqb_eq. split; intro E; [|rewrite E; lia].
        apply (block_inj (c_bs0 c) _ (I mod c_bs0 c) _ (I mod c_bs0 c)); auto. lia. }
      assert (B : (nth q (c_cols c) 0 * c_bs1 c + J mod c_bs1 c =? J) = (nth q (c_cols c) 0 =? J / c_bs1 c)).
      { apply Bool.eq_iff_eq_true. rewrite !Nat.eqb_eq. split; intro E; [|rewrite E; lia].
        apply (block_inj (c_bs1 c) _ (J mod c_bs1 c) _ (J mod c_bs1 c)); auto. lia. }
      rewrite A, B. reflexivity.
    + apply seq_NoDup.
    + apply in_seq. lia.
    + intros i Hi Hne. apply in_seq in Hi. rewrite Eq by lia. destruct (Nat.eqb_spec (nth q (c_cols c) 0 * c_bs1 c + i) J) as [E|N].
      * exfalso. apply Hne. rewrite <- E, Nat.add_comm, Nat.mod_add, Nat.mod_small; lia.
      * now rewrite Bool.andb_false_r.
  - apply seq_NoDup.
  - apply in_seq. lia.
  - intros i Hi Hne. apply in_seq in Hi. rewrite Er by lia. apply concat_nil. intros b _.
    destruct (Nat.eqb_spec (nth r (c_rows c) 0 * c_bs0 c + i) I) as [E|N]; [|reflexivity].
    exfalso. apply Hne. rewrite <- E, Nat.add_comm, Nat.mod_add, Nat.mod_small; lia.
Qed.
End Contribs.

(** * The insertion functions *)
Section Insert.
Context {T : Type} (zero : T) (op : T -> T -> T).
Variable rows : list (list nat).
Hypothesis Hs : Forall (StronglySorted lt) rows.
Notation cols := (concat rows).
Notation rp := (psums (map (@length nat) rows)).
Notation R := (R rows).
Notation pos := (pos rows).

(** The updates of a call are executed in the order of the list [U]. *)
Definition runs_as (f : list T -> option (list T)) (U : list (nat * T)) := forall data, f data = ofold (upd1 op) U data.

Lemma runs_nested {A} (f : list T -> A -> option (list T)) (g : A -> list (nat * T)) l :
  (forall a, In a l -> runs_as (fun d => f d a) (g a)) -> runs_as (ofold f l) (concat (map g l)).
Proof.
  intros H data. rewrite <- StackProofs.ofold_nested. apply ofold_ext. intros s a Ha. now apply H.
Qed.

Lemma runs_enum {A} (f : list T -> nat * A -> option (list T)) (g : nat -> list (nat * T)) (l : list A) d :
  (forall i, i < length l -> runs_as (fun x => f x (i, nth i l d)) (g i)) -> runs_as (ofold f (enum l)) (concat (map g (seq 0 (length l)))).
Proof.
  intros H. replace (concat (map g (seq 0 (length l)))) with (concat (map (fun p => g (fst p)) (enum l))).
  - apply runs_nested. intros [i a] Hin. apply in_enum in Hin. pose proof (nth_error_bound _ _ _ Hin) as Hb.
    cbn [fst]. replace a with (nth i l d) by (apply nth_error_nth; exact Hin). now apply H.
  - rewrite (map_enum _ l d). reflexivity.
Qed.

Lemma runs_flat (f : list T -> nat -> option (list T)) (g : nat -> nat * T) n :
  (forall i data, i < n -> f data i = upd1 op data (g i)) -> runs_as (ofold f (seq 0 n)) (map g (seq 0 n)).
Proof.
  intros H data. rewrite StackProofs.ofold_map. apply ofold_ext. intros s a Ha. apply H. apply in_seq in Ha; lia.
Qed.

Section Call.
Variables (x : list T) (xrows xcols : list nat).
Notation xr r := (nth r xrows 0).
Notation xc c := (nth c xcols 0).

(** Same block size. *)
Section Same.
Variables (B0 B1 : nat).
Hypothesis HB0 : 0 < B0.
Hypothesis HB1 : 0 < B1.
Hypothesis Hx : length x = length xrows * B0 * (length xcols * B1).
Hypothesis Hin : forall r c, r < length xrows -> c < length xcols -> In (xc c) (R (xr r)).
Hypothesis Hrows : forall r, r < length xrows -> xr r < length rows.
Variable num_rows : nat.
Hypothesis Hnum : length rows <= num_rows.

Definition same_updates : list (nat * T) :=
  concat (map (fun r => concat (map (fun c => concat (map (fun i => map (fun j =>
    ((pos (xr r) (xc c) * B0 + i) * B1 + j, nth ((r * B0 + i) * (length xcols * B1) + (c * B1 + j)) x zero))
    (seq 0 B1)) (seq 0 B0))) (seq 0 (length xcols)))) (seq 0 (length xrows))).

Lemma x_index r i w : r < length xrows -> i < B0 -> w < length xcols * B1 -> (r * B0 + i) * (length xcols * B1) + w < length x.
Proof.
  clear - Hx. intros. rewrite Hx. assert (r * B0 + i + 1 <= length xrows * B0) by nia.
  assert ((r * B0 + i + 1) * (length xcols * B1) <= length xrows * B0 * (length xcols * B1)) by (apply Nat.mul_le_mono_r; lia). nia.
Qed.
Lemma w_index c j : c < length xcols -> j < B1 -> c * B1 + j < length xcols * B1.
Proof. clear. intros. nia. Qed.

Lemma insert_same : runs_as (insert_csr op B0 B1 cols rp num_rows x xrows xcols) same_updates.
Proof.
  unfold insert_csr, runs_as. intro data. rewrite Hx.
  replace (length xrows * B0 * (length xcols * B1) =? length xrows * length xcols * B0 * B1) with true by (symmetry; apply Nat.eqb_eq; lia).
  revert data. fold (runs_as (ofold (fun data '(r, row) =>
      if num_rows <=? row then None else
      '(a, rc) <- row_of cols rp row ;;
      ofold (fun data '(c, col) =>
        k <- find_sorted rc col ;;
        let di := (a + k) * B0 * B1 in
        let xi := r * length xcols * B0 * B1 + c * B1 in
        ofold (fun data i =>
          ofold (fun data j =>
            v <- nth_error x (xi + i * (length xcols * B1) + j) ;;
            apply_op op data (di + i * B1 + j) v) (seq 0 B1) data) (seq 0 B0) data)
        (enum xcols) data) (enum xrows)) same_updates).
  apply (runs_enum _ _ _ 0). intros r Hr data.
  replace (num_rows <=? xr r) with false by (symmetry; apply Nat.leb_gt; specialize (Hrows r Hr); lia).
  rewrite row_of_ok by (now apply Hrows). cbn [obind]. revert data. apply (runs_enum _ _ _ 0). intros c Hc data.
  destruct (idx_ok rows Hs _ _ (Hin r c Hr Hc)) as (E & _ & _). unfold MatrixProofs.R in *. rewrite E. cbn [obind].
  revert data. apply runs_nested. intros i Hi. apply in_seq in Hi. apply runs_flat. intros j data Hj.
  pose proof (x_index r i (c * B1 + j) Hr ltac:(lia) (w_index c j Hc Hj)) as Hb.
  replace (r * length xcols * B0 * B1 + c * B1 + i * (length xcols * B1) + j) with ((r * B0 + i) * (length xcols * B1) + (c * B1 + j)) by lia.
  rewrite (nth_error_nth_some x _ zero Hb). cbn [obind]. unfold upd1. cbn [fst snd]. f_equal. unfold MatrixProofs.pos. lia.
Qed.

Lemma same_range p v : In (p, v) same_updates -> p < length cols * B0 * B1.
Proof.
  clear Hnum num_rows Hrows.
  unfold same_updates. intro H. apply in_concat in H as (l & Hl & H). apply in_map_iff in Hl as (r & <- & Hr). apply in_seq in Hr.
  apply in_concat in H as (l & Hl & H). apply in_map_iff in Hl as (c & <- & Hc). apply in_seq in Hc.
  apply in_concat in H as (l & Hl & H). apply in_map_iff in Hl as (i & <- & Hi). apply in_seq in Hi.
  apply in_map_iff in H as (j & E & Hj). apply in_seq in Hj. injection E as <- _.
  pose proof (pos_lt rows Hs _ _ (Hin r c ltac:(lia) ltac:(lia))) as L.
  assert (pos (xr r) (xc c) * B0 + i + 1 <= length cols * B0) by nia. nia.
Qed.

Lemma same_vals (cl : call T) I J : c_bs0 cl = B0 -> c_bs1 cl = B1 -> c_x cl = x -> c_rows cl = xrows -> c_cols cl = xcols ->
  In (J / B1) (R (I / B0)) ->
  vals ((pos (I / B0) (J / B1) * B0 + I mod B0) * B1 + J mod B1) same_updates = contribs zero cl I J.
Proof.
  clear Hnum num_rows Hrows.
  intros E0 E1 Ex Er Ec HIJ. rewrite contribs_canon by (rewrite ?E0, ?E1; assumption). unfold c_width. rewrite E0, E1, Ex, Er, Ec.
  assert (HI : I mod B0 < B0) by (apply Nat.mod_upper_bound; lia).
  assert (HJ : J mod B1 < B1) by (apply Nat.mod_upper_bound; lia).
  unfold same_updates. rewrite vals_concat, map_map. f_equal. apply map_ext_in. intros r Hr. apply in_seq in Hr.
  rewrite vals_concat, map_map. f_equal. apply map_ext_in. intros c Hc. apply in_seq in Hc.
  rewrite vals_concat, map_map.
  pose proof (Hin r c ltac:(lia) ltac:(lia)) as Hrc.
  rewrite (concat_single _ _ (I mod B0)); [|apply seq_NoDup|apply in_seq; lia|].
  - rewrite vals_map_filter.
    destruct (Nat.eqb_spec (xr r) (I / B0)) as [A|A]; [destruct (Nat.eqb_spec (xc c) (J / B1)) as [B|B]|]; cbn [andb].
    + rewrite (filter_single _ _ (J mod B1)); [reflexivity|apply seq_NoDup|apply in_seq; lia| |].
      * rewrite A, B. apply Nat.eqb_refl.
      * intros j Hj E. apply in_seq in Hj. apply Nat.eqb_eq in E. apply block_inj in E as (_ & E); lia.
    + rewrite filter_none; [reflexivity|]. intros j Hj. apply in_seq in Hj. apply Nat.eqb_neq. intro E.
      apply block_inj in E as (E & _); [|lia|lia]. apply block_inj in E as (E & _); [|lia|lia]. apply pos_inj in E; auto. tauto.
    + rewrite filter_none; [reflexivity|]. intros j Hj. apply in_seq in Hj. apply Nat.eqb_neq. intro E.
      apply block_inj in E as (E & _); [|lia|lia]. apply block_inj in E as (E & _); [|lia|lia]. apply pos_inj in E; auto. tauto.
  - intros i Hi Hne. apply in_seq in Hi. rewrite vals_map_filter, filter_none; [reflexivity|].
    intros j Hj. apply in_seq in Hj. apply Nat.eqb_neq. intro E.
    apply block_inj in E as (E & _); [|lia|lia]. apply block_inj in E as (_ & E); lia.
Qed.
End Same.

(** Blocks of values, matrix without blocks. *)
Section Blocked.
Variables (B0 B1 : nat).
Hypothesis HB0 : 0 < B0.
Hypothesis HB1 : 0 < B1.
Hypothesis Hx : length x = length xrows * B0 * (length xcols * B1).
Hypothesis Hin : forall r c i j, r < length xrows -> c < length xcols -> i < B0 -> j < B1 -> In (xc c * B1 + j) (R (xr r * B0 + i)).
Hypothesis Hrows : forall r i, r < length xrows -> i < B0 -> xr r * B0 + i < length rows.
Variable num_rows : nat.
Hypothesis Hnum : length rows <= num_rows.

Definition blocked_updates : list (nat * T) :=
  concat (map (fun r => concat (map (fun i => concat (map (fun c => map (fun j =>
    (pos (xr r * B0 + i) (xc c * B1 + j), nth ((r * B0 + i) * (length xcols * B1) + (c * B1 + j)) x zero))
    (seq 0 B1)) (seq 0 (length xcols)))) (seq 0 B0))) (seq 0 (length xrows))).

Lemma insert_blocked : runs_as (insert_blocked_csr op B0 B1 cols rp num_rows x xrows xcols) blocked_updates.
Proof.
  unfold insert_blocked_csr, runs_as. intro data. rewrite Hx.
  replace (length xrows * B0 * (length xcols * B1) =? length xrows * length xcols * B0 * B1) with true by (symmetry; apply Nat.eqb_eq; lia).
  revert data. cbv zeta. apply (runs_enum _ _ _ 0). intros r Hr data.
  replace (num_rows <=? xr r * B0) with false by (symmetry; apply Nat.leb_gt; specialize (Hrows r 0 Hr HB0); lia).
  revert data. apply runs_nested. intros i Hi data. apply in_seq in Hi.
  rewrite row_of_ok by (apply Hrows; lia). cbn [obind]. revert data. apply (runs_enum _ _ _ 0). intros c Hc data.
  assert (H0 : In (xc c * B1) (R (xr r * B0 + i))) by (specialize (Hin r c i 0 Hr Hc ltac:(lia) HB1); now rewrite Nat.add_0_r in Hin).
  destruct (idx_ok rows Hs _ _ H0) as (E & _ & _). rewrite E. cbn [obind].
  revert data. apply runs_flat. intros j data Hj.
  pose proof (x_index B0 B1 Hx r i (c * B1 + j) Hr ltac:(lia) (w_index B1 c j Hc Hj)) as Hb.
  replace ((r * B0 + i) * length xcols * B1 + c * B1 + j) with ((r * B0 + i) * (length xcols * B1) + (c * B1 + j)) by lia.
  rewrite (nth_error_nth_some x _ zero Hb). cbn [obind]. unfold upd1. cbn [fst snd].
  rewrite (pos_consecutive rows Hs _ _ B1); [reflexivity| |exact Hj]. intros; apply Hin; auto; lia.
Qed.

Lemma blocked_range p v : In (p, v) blocked_updates -> p < length cols.
Proof.
  clear Hnum num_rows Hrows.
  unfold blocked_updates. intro H. apply in_concat in H as (l & Hl & H). apply in_map_iff in Hl as (r & <- & Hr). apply in_seq in Hr.
  apply in_concat in H as (l & Hl & H). apply in_map_iff in Hl as (i & <- & Hi). apply in_seq in Hi.
  apply in_concat in H as (l & Hl & H). apply in_map_iff in Hl as (c & <- & Hc). apply in_seq in Hc.
  apply in_map_iff in H as (j & E & Hj). apply in_seq in Hj. injection E as <- _.
  apply pos_lt; [exact Hs|]. apply Hin; lia.
Qed.

Lemma blocked_vals (cl : call T) I J : c_bs0 cl = B0 -> c_bs1 cl = B1 -> c_x cl = x -> c_rows cl = xrows -> c_cols cl = xcols ->
  In J (R I) -> vals (pos I J) blocked_updates = contribs zero cl I J.
Proof.
  clear Hnum num_rows Hrows.
  intros E0 E1 Ex Er Ec HIJ. rewrite contribs_canon by (rewrite ?E0, ?E1; assumption). unfold c_width. rewrite E0, E1, Ex, Er, Ec.
  assert (HI : I mod B0 < B0) by (apply Nat.mod_upper_bound; lia).
  assert (HJ : J mod B1 < B1) by (apply Nat.mod_upper_bound; lia).
  pose proof (Nat.div_mod_eq I B0) as DI. pose proof (Nat.div_mod_eq J B1) as DJ.
  unfold blocked_updates. rewrite vals_concat, map_map. f_equal. apply map_ext_in. intros r Hr. apply in_seq in Hr.
  rewrite vals_concat, map_map. rewrite (concat_single _ _ (I mod B0)); [|apply seq_NoDup|apply in_seq; lia|].
  - rewrite vals_concat, map_map. f_equal. apply map_ext_in. intros c Hc. apply in_seq in Hc. rewrite vals_map_filter.
    assert (G : forall j, j < B1 -> pos (xr r * B0 + I mod B0) (xc c * B1 + j) = pos I J -> xr r = I / B0 /\ xc c = J / B1 /\ j = J mod B1).
    { intros j Hj E. apply pos_inj in E as (EI & EJ); auto; [|apply Hin; lia].
      split; [|split].
      - apply (block_inj B0 _ (I mod B0) _ (I mod B0)); auto. lia.
      - apply (block_inj B1 _ j _ (J mod B1)); auto. lia.
      - apply (block_inj B1 (xc c) j (J / B1) (J mod B1)); auto. lia. }
    destruct (Nat.eqb_spec (xr r) (I / B0)) as [A|A]; [destruct (Nat.eqb_spec (xc c) (J / B1)) as [B|B]|]; cbn [andb].
    + rewrite (filter_single _ _ (J mod B1)); [reflexivity|apply seq_NoDup|apply in_seq; lia| |].
      * apply Nat.eqb_eq. f_equal; lia.
      * intros j Hj E. apply in_seq in Hj. apply Nat.eqb_eq in E. apply G in E; [tauto|lia].
    + rewrite filter_none; [reflexivity|]. intros j Hj. apply in_seq in Hj. apply Nat.eqb_neq. intro E. apply G in E; [tauto|lia].
    + rewrite filter_none; [reflexivity|]. intros j Hj. apply in_seq in Hj. apply Nat.eqb_neq. intro E. apply G in E; [tauto|lia].
  - intros i Hi Hne. apply in_seq in Hi. rewrite vals_concat, map_map. apply concat_nil. intros c Hc. apply in_seq in Hc.
    rewrite vals_map_filter, filter_none; [reflexivity|].
    intros j Hj. apply in_seq in Hj. apply Nat.eqb_neq. intro E. apply pos_inj in E as (E & _); auto; [|apply Hin; lia].
    apply Hne. apply (block_inj B0 (xr r) i (I / B0) (I mod B0)); try lia.
Qed.
End Blocked.

(** Single values, matrix with blocks. *)
Section NonBlocked.
Variables (b0 b1 : nat).
Hypothesis HB0 : 0 < b0.
Hypothesis HB1 : 0 < b1.
Hypothesis Hx : length x = length xrows * length xcols.
Hypothesis Hin : forall r c, r < length xrows -> c < length xcols -> In (xc c / b1) (R (xr r / b0)).
Hypothesis Hrows : forall r, r < length xrows -> xr r / b0 < length rows.
Variable num_rows : nat.
Hypothesis Hnum : length rows <= num_rows.

Definition single_updates : list (nat * T) :=
  concat (map (fun r => map (fun c =>
    ((pos (xr r / b0) (xc c / b1) * b0 + xr r mod b0) * b1 + xc c mod b1, nth (r * length xcols + c) x zero))
    (seq 0 (length xcols))) (seq 0 (length xrows))).

Lemma enum_flat (f : list T -> nat * nat -> option (list T)) (g : nat -> nat * T) (l : list nat) :
  (forall i data, i < length l -> f data (i, nth i l 0) = upd1 op data (g i)) -> runs_as (ofold f (enum l)) (map g (seq 0 (length l))).
Proof.
  intros H data.
  assert (E : map g (seq 0 (length l)) = map (fun p => g (fst p)) (enum l)) by (rewrite (map_enum _ l 0); reflexivity).
  rewrite E, StackProofs.ofold_map. apply ofold_ext. intros s [i a] Ha. apply in_enum in Ha. pose proof (nth_error_bound _ _ _ Ha) as Hb.
  cbn [fst]. rewrite <- H by exact Hb. f_equal. f_equal. symmetry. apply nth_error_nth, Ha.
Qed.

Lemma insert_single : runs_as (insert_nonblocked_csr op b0 b1 cols rp num_rows x xrows xcols) single_updates.
Proof.
  unfold insert_nonblocked_csr, runs_as. intro data. rewrite Hx, Nat.eqb_refl.
  revert data. cbv zeta. apply (runs_enum _ _ _ 0). intros r Hr data.
  replace (num_rows <=? xr r / b0) with false by (symmetry; apply Nat.leb_gt; specialize (Hrows r Hr); lia).
  rewrite row_of_ok by (now apply Hrows). cbn [obind]. revert data. apply enum_flat. intros c data Hc.
  destruct (idx_ok rows Hs _ _ (Hin r c Hr Hc)) as (E & _ & _). rewrite E. cbn [obind].
  rewrite (nth_error_nth_some x _ zero) by nia. cbn [obind]. unfold upd1. cbn [fst snd]. f_equal. unfold MatrixProofs.pos. lia.
Qed.

Lemma single_range p v : In (p, v) single_updates -> p < length cols * b0 * b1.
Proof.
  clear Hnum num_rows Hrows.
  unfold single_updates. intro H. apply in_concat in H as (l & Hl & H). apply in_map_iff in Hl as (r & <- & Hr). apply in_seq in Hr.
  apply in_map_iff in H as (c & E & Hc). apply in_seq in Hc. injection E as <- _.
  pose proof (pos_lt rows Hs _ _ (Hin r c ltac:(lia) ltac:(lia))) as L.
  assert (xr r mod b0 < b0) by (apply Nat.mod_upper_bound; lia).
  assert (xc c mod b1 < b1) by (apply Nat.mod_upper_bound; lia).
  assert (pos (xr r / b0) (xc c / b1) * b0 + xr r mod b0 + 1 <= length cols * b0) by nia. nia.
Qed.

Lemma single_vals (cl : call T) I J : c_bs0 cl = 1 -> c_bs1 cl = 1 -> c_x cl = x -> c_rows cl = xrows -> c_cols cl = xcols ->
  In (J / b1) (R (I / b0)) ->
  vals ((pos (I / b0) (J / b1) * b0 + I mod b0) * b1 + J mod b1) single_updates = contribs zero cl I J.
Proof.
  clear Hnum num_rows Hrows.
  intros E0 E1 Ex Er Ec HIJ. rewrite contribs_canon by (rewrite ?E0, ?E1; lia). unfold c_width. rewrite E0, E1, Ex, Er, Ec.
  rewrite !Nat.div_1_r, !Nat.mod_1_r.
  assert (HI : I mod b0 < b0) by (apply Nat.mod_upper_bound; lia).
  assert (HJ : J mod b1 < b1) by (apply Nat.mod_upper_bound; lia).
  unfold single_updates. rewrite vals_concat, map_map. f_equal. apply map_ext_in. intros r Hr. apply in_seq in Hr.
  assert (Hf : forall V (l : list (nat * V)) k, vals k l = concat (map (fun p => if fst p =? k then [snd p] else []) l)).
  { clear. intros V l k. induction l as [|p t IH]; [reflexivity|]. cbn [map concat]. rewrite <- IH. unfold vals. cbn [filter].
    destruct (fst p =? k); reflexivity. }
  rewrite Hf, map_map. f_equal. apply map_ext_in. intros c Hc. apply in_seq in Hc. cbn [fst snd].
  assert (HI' : xr r mod b0 < b0) by (apply Nat.mod_upper_bound; lia).
  assert (HJ' : xc c mod b1 < b1) by (apply Nat.mod_upper_bound; lia).
  replace ((r * 1 + 0) * (length xcols * 1) + (c * 1 + 0)) with (r * length xcols + c) by lia.
  assert (Hc2 : ((pos (xr r / b0) (xc c / b1) * b0 + xr r mod b0) * b1 + xc c mod b1 =? (pos (I / b0) (J / b1) * b0 + I mod b0) * b1 + J mod b1)
      = (xr r =? I) && (xc c =? J)).
  { apply Bool.eq_iff_eq_true. rewrite Bool.andb_true_iff, !Nat.eqb_eq. split.
    - intro E. apply block_inj in E as (E & EJ); [|lia|lia]. apply block_inj in E as (E & EI); [|lia|lia].
      apply pos_inj in E as (A & B); auto; [|apply Hin; lia].
      rewrite (Nat.div_mod_eq (xr r) b0), (Nat.div_mod_eq I b0), (Nat.div_mod_eq (xc c) b1), (Nat.div_mod_eq J b1). rewrite A, B, EI, EJ. auto.
    - intros (-> & ->). reflexivity. }
  rewrite Hc2. reflexivity.
Qed.
End NonBlocked.
End Call.
End Insert.

(** * One call *)
Section Call.
Context {T : Type} (zero : T) (add : T -> T -> T).
Definition call_op (b : bool) : T -> T -> T := fun y v => if b then add y v else v.

Definition call_data (num_rows : nat) (A : csr T) (c : call T) : option (list T) :=
  if (mt_bs0 A =? c_bs0 c) && (mt_bs1 A =? c_bs1 c) then
    insert_csr (call_op (c_add c)) (c_bs0 c) (c_bs1 c) (mt_cols A) (mt_rp A) num_rows (c_x c) (c_rows c) (c_cols c) (mt_data A)
  else if (mt_bs0 A =? 1) && (mt_bs1 A =? 1) then
    insert_blocked_csr (call_op (c_add c)) (c_bs0 c) (c_bs1 c) (mt_cols A) (mt_rp A) num_rows (c_x c) (c_rows c) (c_cols c) (mt_data A)
  else if (c_bs0 c =? 1) && (c_bs1 c =? 1) then
    insert_nonblocked_csr (call_op (c_add c)) (mt_bs0 A) (mt_bs1 A) (mt_cols A) (mt_rp A) num_rows (c_x c) (c_rows c) (c_cols c) (mt_data A)
  else None.

Lemma mat_call_data A c : exists num_rows, length (mt_rp A) - 1 <= num_rows /\
  mat_call add A c = (d <- call_data num_rows A c ;; Some (mkCSR (mt_bs0 A) (mt_bs1 A) (mt_cols A) (mt_rp A) d)).
Proof.
  destruct A as [b0 b1 cols rp data], c as [ad B0 B1 x xr xc]. unfold mat_call, mat_add, mat_set, mat_insert, call_data, call_op. cbn.
  destruct ad; [exists (length rp)|exists (length rp - 1)]; (split; [lia|reflexivity]).
Qed.

Lemma contribs_in (c : call T) I J : contribs zero c I J <> [] ->
  exists a b, a < c_height c /\ b < c_width c /\ c_row c a = I /\ c_col c b = J.
Proof.
  unfold contribs. intro H. destruct (concat _) as [|v t] eqn:E in H; [now destruct H|]. clear H.
  assert (Hv : In v (v :: t)) by now left. rewrite <- E in Hv. apply in_concat in Hv as (l & Hl & Hv).
  apply in_map_iff in Hl as (a & <- & Ha). apply in_concat in Hv as (l & Hl & Hv). apply in_map_iff in Hl as (b & <- & Hb).
  apply in_seq in Ha, Hb. exists a, b. destruct (Nat.eqb_spec (c_row c a) I), (Nat.eqb_spec (c_col c b) J); cbn in Hv; try tauto.
Qed.

Lemma dense_off rows bs0 bs1 data I J : 0 < bs0 -> 0 < bs1 -> Forall (StronglySorted lt) rows ->
  dense zero (mkCSR bs0 bs1 (concat rows) (psums (map (@length nat) rows)) data) I J =
  match index_in (J / bs1) (R rows (I / bs0)) with
  | Some k => nth (((off rows (I / bs0) + k) * bs0 + I mod bs0) * bs1 + J mod bs1) data zero
  | None => zero
  end.
Proof.
  intros H0 H1 Hs. unfold dense. cbn [mt_rp mt_bs0 mt_bs1 mt_cols mt_data].
  destruct (lt_dec (I / bs0) (length rows)) as [L|L].
  - rewrite rp_nth, slice_row by lia. reflexivity.
  - rewrite slice_row_none by lia. unfold R. rewrite nth_overflow by lia. cbn. destruct (nth_error _ _); reflexivity.
Qed.

Lemma in_pattern_R rows bs0 bs1 (data : list T) I J :
  in_pattern (mkCSR bs0 bs1 (concat rows) (psums (map (@length nat) rows)) data) I J <-> In (J / bs1) (R rows (I / bs0)).
Proof.
  unfold in_pattern. cbn [mt_rp mt_bs0 mt_bs1 mt_cols]. split.
  - intros (l & E & H). destruct (lt_dec (I / bs0) (length rows)) as [L|L].
    + rewrite slice_row in E by exact L. injection E as <-. exact H.
    + rewrite slice_row_none in E by lia. discriminate.
  - intro H. exists (R rows (I / bs0)). split; [|exact H]. apply slice_row. eapply in_R_lt; eauto.
Qed.

Lemma call_ok A c : csr_ok A -> call_shape A c -> call_inside A c -> exists A', mat_call add A c = Some A' /\
  mt_bs0 A' = mt_bs0 A /\ mt_bs1 A' = mt_bs1 A /\ mt_cols A' = mt_cols A /\ mt_rp A' = mt_rp A /\ csr_ok A' /\
  forall I J, dense zero A' I J = dense_step zero add (dense zero A) c I J.
Proof.
  intros (H0 & H1 & (rows & Ec & Er & Hs) & Hd) (C0 & C1 & Cx & Cr & Cm) Hin.
  destruct A as [b0 b1 cols rp data]. cbn [mt_bs0 mt_bs1 mt_cols mt_rp mt_data] in *. subst cols rp.
  destruct (mat_call_data (mkCSR b0 b1 (concat rows) (psums (map (@length nat) rows)) data) c) as (num & Hnum & ->).
  cbn [mt_bs0 mt_bs1 mt_cols mt_rp mt_data] in *. rewrite psums_length, map_length in *.
  assert (Hrow : forall r, r < length (c_rows c) -> forall i, i < c_bs0 c -> c_row c (r * c_bs0 c + i) = nth r (c_rows c) 0 * c_bs0 c + i).
  { intros r Hr i Hi. unfold c_row. rewrite Nat.div_add_l, Nat.div_small, Nat.add_0_r by lia.
    f_equal. rewrite Nat.add_comm, Nat.mod_add, Nat.mod_small; lia. }
  assert (Hcol : forall r, r < length (c_cols c) -> forall i, i < c_bs1 c -> c_col c (r * c_bs1 c + i) = nth r (c_cols c) 0 * c_bs1 c + i).
  { intros r Hr i Hi. unfold c_col. rewrite Nat.div_add_l, Nat.div_small, Nat.add_0_r by lia.
    f_equal. rewrite Nat.add_comm, Nat.mod_add, Nat.mod_small; lia. }
  assert (Hb : forall r i n m, r < n -> i < m -> r * m + i < n * m) by (clear; intros; nia).
  assert (Hin' : forall r k i j, r < length (c_rows c) -> k < length (c_cols c) -> i < c_bs0 c -> j < c_bs1 c ->
            In ((nth k (c_cols c) 0 * c_bs1 c + j) / b1) (R rows ((nth r (c_rows c) 0 * c_bs0 c + i) / b0))).
  { intros r k i j Hr Hk Hi Hj. specialize (Hin (r * c_bs0 c + i) (k * c_bs1 c + j) (Hb _ _ _ _ Hr Hi) (Hb _ _ _ _ Hk Hj)).
    rewrite in_pattern_R, Hrow, Hcol in Hin by assumption. exact Hin. }
  assert (Cr' : forall r i, r < length (c_rows c) -> i < c_bs0 c -> (nth r (c_rows c) 0 * c_bs0 c + i) / b0 < length rows).
  { intros r i Hr Hi. specialize (Cr (r * c_bs0 c + i) (Hb _ _ _ _ Hr Hi)). rewrite Hrow in Cr by assumption. lia. }
  assert (G : exists U, runs_as (call_op (c_add c)) (fun d => call_data num (mkCSR b0 b1 (concat rows) (psums (map (@length nat) rows)) d) c) U /\
     (forall p v, In (p, v) U -> p < length data) /\
     (forall I J, In (J / b1) (R rows (I / b0)) -> vals ((pos rows (I / b0) (J / b1) * b0 + I mod b0) * b1 + J mod b1) U = contribs zero c I J)).
  { unfold call_data. cbn [mt_bs0 mt_bs1 mt_cols mt_rp mt_data].
    destruct (Nat.eqb_spec b0 (c_bs0 c)) as [E0|E0]; [destruct (Nat.eqb_spec b1 (c_bs1 c)) as [E1|E1]|]; cbn [andb].
    1:{ subst b0 b1. exists (same_updates zero rows (c_x c) (c_rows c) (c_cols c) (c_bs0 c) (c_bs1 c)).
        assert (Hin2 : forall r k, r < length (c_rows c) -> k < length (c_cols c) -> In (nth k (c_cols c) 0) (R rows (nth r (c_rows c) 0))).
        { intros r k Hr Hk. specialize (Hin' r k 0 0 Hr Hk C0 C1). rewrite !Nat.add_0_r, !Nat.div_mul in Hin' by lia. exact Hin'. }
        split; [|split].
        - intro d. apply insert_same; auto; [|lia]. intros r Hr. specialize (Cr' r 0 Hr C0). rewrite Nat.add_0_r, Nat.div_mul in Cr' by lia. exact Cr'.
        - rewrite Hd. apply same_range; auto.
        - intros I J HIJ. apply same_vals; auto. }
    all: destruct ((b0 =? 1) && (b1 =? 1)) eqn:E2; [apply Bool.andb_true_iff in E2 as (E2 & E3); apply Nat.eqb_eq in E2, E3; clear E0; try clear E1; subst b0 b1|].
    1,3: exists (blocked_updates zero rows (c_x c) (c_rows c) (c_cols c) (c_bs0 c) (c_bs1 c));
      assert (Hin2 : forall r k i j, r < length (c_rows c) -> k < length (c_cols c) -> i < c_bs0 c -> j < c_bs1 c ->
         In (nth k (c_cols c) 0 * c_bs1 c + j) (R rows (nth r (c_rows c) 0 * c_bs0 c + i)))
        by (intros r k i j Hr Hk Hi Hj; specialize (Hin' r k i j Hr Hk Hi Hj); now rewrite !Nat.div_1_r in Hin');
      (split; [|split]);
      [intro d; apply insert_blocked; auto; [|lia]; intros r i Hr Hi; specialize (Cr' r i Hr Hi); now rewrite Nat.div_1_r in Cr'
      |rewrite Hd, !Nat.mul_1_r; apply blocked_range; auto
      |intros I J HIJ; rewrite !Nat.div_1_r in *; rewrite !Nat.mod_1_r, !Nat.mul_1_r, !Nat.add_0_r; apply blocked_vals; auto].
    all: assert (HB : c_bs0 c = 1 /\ c_bs1 c = 1)
       by (destruct Cm as [(? & ?)|[(? & ?)|?]]; [lia|subst b0 b1; discriminate E2|assumption]);
      destruct HB as (HB0 & HB1); unfold c_height, c_width in Cx; rewrite HB0, HB1 in *; rewrite !Nat.mul_1_r in Cx; cbn [Nat.eqb andb];
      exists (single_updates zero rows (c_x c) (c_rows c) (c_cols c) b0 b1);
      assert (Hin2 : forall r k, r < length (c_rows c) -> k < length (c_cols c) -> In (nth k (c_cols c) 0 / b1) (R rows (nth r (c_rows c) 0 / b0)))
        by (intros r k Hr Hk; specialize (Hin' r k 0 0 Hr Hk C0 C1); now rewrite !Nat.add_0_r, !Nat.mul_1_r in Hin');
      (split; [|split]);
      [intro d; apply insert_single; auto; [|lia]; intros r Hr; specialize (Cr' r 0 Hr C0); now rewrite Nat.add_0_r, Nat.mul_1_r in Cr'
      |rewrite Hd; apply single_range; auto
      |intros I J HIJ; apply single_vals; auto]. }
  destruct G as (U & HU & HR & HV).
  destruct (updates_ok (call_op (c_add c)) U data HR) as (d' & Ed & Ld & Hv).
  rewrite HU, Ed. cbn [obind]. eexists. split; [reflexivity|]. cbn [mt_bs0 mt_bs1 mt_cols mt_rp mt_data].
  repeat (split; [reflexivity|]). split.
  { split; [exact H0|]. split; [exact H1|]. split; [|cbn; lia]. exists rows. auto. }
  intros I J. unfold dense_step. rewrite !dense_off by assumption.
  destruct (index_in (J / b1) (R rows (I / b0))) as [k|] eqn:Ek.
  - assert (HIJ : In (J / b1) (R rows (I / b0))) by (apply index_in_some in Ek; eapply nth_error_In; eauto).
    assert (Ep : pos rows (I / b0) (J / b1) = off rows (I / b0) + k) by (unfold pos, idx; rewrite Ek; reflexivity).
    rewrite <- Ep, <- HV by exact HIJ.
    assert (Hlt : (pos rows (I / b0) (J / b1) * b0 + I mod b0) * b1 + J mod b1 < length data).
    { rewrite Hd. pose proof (pos_lt rows Hs _ _ HIJ).
      assert (I mod b0 < b0) by (apply Nat.mod_upper_bound; lia). assert (J mod b1 < b1) by (apply Nat.mod_upper_bound; lia).
      assert (pos rows (I / b0) (J / b1) * b0 + I mod b0 + 1 <= length (concat rows) * b0) by nia. nia. }
    apply nth_error_nth. apply Hv. now apply nth_error_nth_some.
  - assert (contribs zero c I J = []) as ->; [|reflexivity].
    destruct (contribs zero c I J) as [|v t] eqn:E; [reflexivity|]. exfalso.
    destruct (contribs_in c I J) as (a & b & Ha & Hb2 & Ea & Eb); [rewrite E; discriminate|].
    specialize (Hin a b Ha Hb2). rewrite Ea, Eb, in_pattern_R in Hin. apply index_in_in in Hin as (k & Hk). congruence.
Qed.

Lemma same_pattern (A A' : csr T) : mt_bs0 A' = mt_bs0 A -> mt_bs1 A' = mt_bs1 A -> mt_cols A' = mt_cols A -> mt_rp A' = mt_rp A ->
  forall c, (call_shape A c -> call_shape A' c) /\ (call_inside A c -> call_inside A' c).
Proof.
  intros E0 E1 E2 E3 c. unfold call_shape, call_inside, in_pattern. rewrite E0, E1, E2, E3. auto.
Qed.

Lemma fold_dense_ext calls : forall D D', (forall I J, D I J = D' I J) ->
  forall I J, fold_left (dense_step zero add) calls D I J = fold_left (dense_step zero add) calls D' I J.
Proof.
  induction calls as [|c t IH]; intros D D' H I J; cbn [fold_left]; [apply H|]. apply IH. intros. unfold dense_step. now rewrite H.
Qed.

Lemma run_calls_ok calls : forall A, csr_ok A -> (forall c, In c calls -> call_shape A c /\ call_inside A c) ->
  exists A', mat_run add calls A = Some A' /\
  mt_bs0 A' = mt_bs0 A /\ mt_bs1 A' = mt_bs1 A /\ mt_cols A' = mt_cols A /\ mt_rp A' = mt_rp A /\ csr_ok A' /\
  forall I J, dense zero A' I J = fold_left (dense_step zero add) calls (dense zero A) I J.
Proof.
  induction calls as [|c t IH]; intros A Hok Hc.
  - exists A. cbn. auto 10.
  - destruct (Hc c ltac:(now left)) as (S1 & S2). destruct (call_ok A c Hok S1 S2) as (A1 & E & F0 & F1 & F2 & F3 & Hok1 & Hd).
    destruct (IH A1 Hok1) as (A' & E' & G0 & G1 & G2 & G3 & Hok' & Hd').
    { intros c' Hc'. destruct (Hc c' ltac:(now right)) as (S1' & S2'). destruct (same_pattern A A1 F0 F1 F2 F3 c') as (X & Y). auto. }
    exists A'. unfold mat_run in *. cbn [ofold]. rewrite E. cbn [obind]. split; [exact E'|].
    do 4 (split; [congruence|]). split; [exact Hok'|]. intros I J. rewrite Hd'. cbn [fold_left]. now apply fold_dense_ext.
Qed.
End Call.

Lemma ofold_none {S A} (f : S -> A -> option S) l a s : In a l -> (forall s, f s a = None) -> ofold f l s = None.
Proof.
  revert s. induction l as [|b t IH]; intros s Hin Hf; [destruct Hin|]. cbn [ofold]. destruct Hin as [->|Hin]; [now rewrite Hf|].
  destruct (f s b); cbn [obind]; auto.
Qed.

Section Outside.
Context {T : Type} (add : T -> T -> T).
Lemma outside_fails (A : csr T) (c : call T) a b : csr_ok A -> 0 < c_bs0 c -> 0 < c_bs1 c ->
  (c_bs0 c = mt_bs0 A /\ c_bs1 c = mt_bs1 A) \/ (c_bs0 c = 1 /\ c_bs1 c = 1) \/ b mod c_bs1 c = 0 ->
  a < c_height c -> b < c_width c -> ~ in_pattern A (c_row c a) (c_col c b) -> mat_call add A c = None.
Proof.
  intros (H0 & H1 & (rows & Ec & Er & Hs) & Hd) C0 C1 Cm Ha Hb Hout.
  destruct A as [b0 b1 cols rp data]. cbn [mt_bs0 mt_bs1 mt_cols mt_rp mt_data] in *. subst cols rp. rewrite in_pattern_R in Hout.
  destruct (mat_call_data add (mkCSR b0 b1 (concat rows) (psums (map (@length nat) rows)) data) c) as (num & Hnum & ->).
  enough (E : call_data add num (mkCSR b0 b1 (concat rows) (psums (map (@length nat) rows)) data) c = None) by (rewrite E; reflexivity).
  unfold c_height, c_width in *. set (r := a / c_bs0 c) in *. set (k := b / c_bs1 c) in *.
  assert (Hr : r < length (c_rows c)) by (apply Nat.div_lt_upper_bound; lia).
  assert (Hk : k < length (c_cols c)) by (apply Nat.div_lt_upper_bound; lia).
  assert (Hi : a mod c_bs0 c < c_bs0 c) by (apply Nat.mod_upper_bound; lia).
  assert (Hir : In (r, nth r (c_rows c) 0) (enum (c_rows c))) by (apply in_enum, nth_error_nth_some, Hr).
  assert (Hik : In (k, nth k (c_cols c) 0) (enum (c_cols c))) by (apply in_enum, nth_error_nth_some, Hk).
  unfold c_row, c_col in Hout. fold r k in Hout.
  assert (Hfind : forall row col, ~ In col (R rows row) -> (row_of (concat rows) (psums (map (@length nat) rows)) row = None \/
     exists p, row_of (concat rows) (psums (map (@length nat) rows)) row = Some (p, R rows row) /\ find_sorted (R rows row) col = None)).
  { intros row col Hn. destruct (lt_dec row (length rows)) as [L|L]; [right|left; apply row_of_none; lia].
    exists (off rows row). split; [now apply row_of_ok|]. rewrite find_sorted_spec by now apply R_sorted. now apply index_in_none. }
  unfold call_data. cbn [mt_bs0 mt_bs1 mt_cols mt_rp mt_data].
  destruct (Nat.eqb_spec b0 (c_bs0 c)) as [E0|E0]; [destruct (Nat.eqb_spec b1 (c_bs1 c)) as [E1|E1]|]; cbn [andb].
  1:{ subst b0 b1. unfold insert_csr. destruct (_ =? _); [|reflexivity]. apply (ofold_none _ _ _ _ Hir). intro s.
      destruct (num <=? _); [reflexivity|].
      assert (Hn : ~ In (nth k (c_cols c) 0) (R rows (nth r (c_rows c) 0))).
      { intro Hx. apply Hout. rewrite !Nat.div_add_l by lia. rewrite !(Nat.div_small (_ mod _)) by (apply Nat.mod_upper_bound; lia). now rewrite !Nat.add_0_r. }
      destruct (Hfind _ _ Hn) as [->|(p & -> & Ef)]; cbn [obind]; [reflexivity|]. apply (ofold_none _ _ _ _ Hik). intro s'. rewrite Ef. reflexivity. }
  all: destruct ((b0 =? 1) && (b1 =? 1)) eqn:E2; [apply Bool.andb_true_iff in E2 as (E2 & E3); apply Nat.eqb_eq in E2, E3; clear E0; try clear E1; subst b0 b1|].
  1,3: rewrite !Nat.div_1_r in Hout;
    assert (Em : b mod c_bs1 c = 0) by (destruct Cm as [(_ & Cm)|[(_ & Cm)|Cm]]; [rewrite Cm; apply Nat.mod_1_r|rewrite Cm; apply Nat.mod_1_r|exact Cm]);
    rewrite Em, Nat.add_0_r in Hout;
    unfold insert_blocked_csr; destruct (length (c_x c) =? _); [|reflexivity];
    apply (ofold_none _ _ _ _ Hir); intro s; destruct (num <=? _); [reflexivity|]; cbv zeta;
    apply (ofold_none _ _ (a mod c_bs0 c)); [apply in_seq; lia|]; intro s';
    destruct (Hfind _ _ Hout) as [->|(p & -> & Ef)]; cbn [obind]; [reflexivity|]; apply (ofold_none _ _ _ _ Hik); intro s''; rewrite Ef; reflexivity.
  all: destruct ((c_bs0 c =? 1) && (c_bs1 c =? 1)) eqn:E4; [|reflexivity];
    apply Bool.andb_true_iff in E4 as (E4 & E5); apply Nat.eqb_eq in E4, E5;
    rewrite E4, E5, !Nat.mod_1_r, !Nat.mul_1_r, !Nat.add_0_r in Hout;
    unfold insert_nonblocked_csr; destruct (length (c_x c) =? _); [|reflexivity];
    apply (ofold_none _ _ _ _ Hir); intro s; destruct (num <=? _); [reflexivity|]; cbv zeta;
    destruct (Hfind _ _ Hout) as [->|(p & -> & Ef)]; cbn [obind]; [reflexivity|]; apply (ofold_none _ _ _ _ Hik); intro s''; rewrite Ef; reflexivity.
Qed.
End Outside.
