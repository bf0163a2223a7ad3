(** Proofs about [mult], [multT] and the norm of a distributed matrix. *)
From Coq Require Import Ring.
From Verif Require Import Base BaseProofs BucketProofs Algo AlgoProofs World WorldProofs IndexMap IndexMapSpec IndexMapProofs
  ImSharedProofs Scatterer ScattererProofs RoundTrip VectorOps VectorSpec VectorOpsProofs VectorStmts SparsityProofs
  MatrixCSR MatrixSpec MatrixProofs MatrixDense MatrixPar MatrixParSpec MatrixParProofs SpmvProofs.
From Verif Require StackProofs.
Open Scope nat_scope.

Lemma seq_concat (ls : nat -> nat) n : concat (map (fun q => seq (lsum (map ls (seq 0 q))) (ls q)) (seq 0 n)) = seq 0 (lsum (map ls (seq 0 n))).
Proof.
  induction n as [|n IH]; [reflexivity|]. rewrite seq_S, !map_app, concat_app, IH, lsum_app. cbn [map concat plus]. rewrite app_nil_r.
  rewrite lsum_cons, Nat.add_0_r, seq_app. reflexivity.
Qed.

Lemma seq_split a d b : a <= d <= b -> seq a (b - a) = seq a (d - a) ++ seq d (b - d).
Proof. intro H. replace (b - a) with ((d - a) + (b - d)) by lia. rewrite seq_app. f_equal. f_equal. lia. Qed.

Lemma fold_left_map_add {A B} (f : B -> A) (op : A -> A -> A) l v : fold_left op (map f l) v = fold_left (fun n y => op n (f y)) l v.
Proof. revert v. induction l as [|x t IH]; intro v; [reflexivity|]. cbn. apply IH. Qed.

Section Size.
Variables (P : nat) (maps : nat -> imap).
Hypothesis Hok : maps_ok P maps.

Lemma global_seq : concat (map (fun q => map (fun i => im_lo (maps q) + i) (seq 0 (size_local (maps q)))) (seq 0 P)) = seq 0 (global_size P maps).
Proof.
  unfold global_size. rewrite <- seq_concat. f_equal. apply map_ext_in. intros q Hq. apply in_seq in Hq. rewrite (lo_is_sum P maps Hok) by lia.
  generalize (lsum (map (fun q => size_local (maps q)) (seq 0 q))) as a. intro a. symmetry. apply seq_shift_map.
Qed.
Lemma owned_lt o g : o < P -> owns (maps o) g -> g < global_size P maps.
Proof.
  intros Ho Hw. assert (Hin : In g (seq 0 (global_size P maps))).
  { rewrite <- global_seq. apply in_concat. exists (map (fun i => im_lo (maps o) + i) (seq 0 (size_local (maps o)))). split.
    - apply in_map_iff. exists o. split; [reflexivity|apply in_seq; lia].
    - apply in_map_iff. exists (g - im_lo (maps o)). unfold owns in Hw. split; [lia|]. apply in_seq. unfold size_local. lia. }
  apply in_seq in Hin. lia.
Qed.
Lemma l2g_owned r c g : r < P -> local_to_global (maps r) c = Some g -> exists o, o < P /\ owns (maps o) g.
Proof.
  intros Hr Hc. pose proof (mo_range _ _ Hok r Hr) as Hrange. unfold local_to_global in Hc. destruct (Nat.ltb_spec c (size_local (maps r))) as [L|L].
  - injection Hc as <-. exists r. split; [exact Hr|]. unfold owns. unfold size_local in L. lia.
  - apply nth_error_In in Hc. destruct (ghost_owner P maps Hok r g Hr Hc) as (o & k & A & B & C & D). eauto.
Qed.
Lemma find_owner q G : q < P -> owns (maps q) G -> find (fun q => (im_lo (maps q) <=? G) && (G <? im_hi (maps q))) (seq 0 P) = Some q.
Proof.
  intros Hq HG. destruct (find _ _) as [o|] eqn:E.
  - apply find_some in E as (Ho & E). apply in_seq in Ho. apply Bool.andb_true_iff in E. rewrite Nat.leb_le, Nat.ltb_lt in E.
    f_equal. apply (owner_unique P maps Hok o q G); auto; lia.
  - assert (Hin : In q (seq 0 P)) by (apply in_seq; lia). pose proof (find_none _ _ E q Hin) as E1. cbv beta in E1. apply Bool.andb_false_iff in E1. rewrite Nat.leb_gt, Nat.ltb_ge in E1. unfold owns in HG. lia.
Qed.

(** A copy of a vector entry. *)
Context {T : Type} (zero : T) (bs : nat) (xs : nat -> list T).
Lemma gvec_owned r i k : (forall q, q < P -> bs * size_local (maps q) <= length (xs q)) -> r < P -> i < size_local (maps r) -> k < bs ->
  nth_error (xs r) (i * bs + k) = Some (gvec zero P maps bs xs (im_lo (maps r) + i) k).
Proof.
  intros Hs Hr Hi Hk. assert (Hw : owns (maps r) (im_lo (maps r) + i)) by (unfold owns; unfold size_local in Hi; lia).
  pose proof (global_entry T P (mkVec T maps bs xs) r (im_lo (maps r) + i) k Hok) as E. cbn [v_map v_bs v_x] in E.
  specialize (E Hs Hr Hw Hk). replace (im_lo (maps r) + i - im_lo (maps r)) with i in E by lia.
  unfold gvec. assert (Hlt : i * bs + k < length (xs r)) by (specialize (Hs r Hr); nia).
  rewrite (Nat.mul_comm bs i) in E. rewrite (nth_error_nth_some _ _ zero Hlt) in E |- *. f_equal. symmetry. now apply nth_error_nth.
Qed.
Lemma gvec_fwd x' : full_size P maps bs xs ->
  (forall r, r < P -> length (x' r) = length (xs r) /\
    (forall i, i < bs * size_local (maps r) -> nth_error (x' r) i = nth_error (xs r) i) /\
    (forall k g o j, nth_error (im_ghosts (maps r)) k = Some g -> o < P -> owns (maps o) g -> j < bs ->
       nth_error (x' r) (bs * (size_local (maps r) + k) + j) = nth_error (xs o) (bs * (g - im_lo (maps o)) + j))) ->
  forall r c g k, r < P -> local_to_global (maps r) c = Some g -> k < bs ->
  nth_error (x' r) (c * bs + k) = Some (gvec zero P maps bs xs g k).
Proof.
  intros Hf Hx r c g k Hr Hc Hk. destruct (Hx r Hr) as (_ & Hown & Hgh).
  assert (Hs : forall q, q < P -> bs * size_local (maps q) <= length (xs q)) by (intros q Hq; rewrite (Hf q Hq); nia).
  unfold local_to_global in Hc. destruct (Nat.ltb_spec c (size_local (maps r))) as [L|L].
  - injection Hc as <-. rewrite Hown by nia. now apply gvec_owned.
  - destruct (ghost_owner P maps Hok r g Hr (nth_error_In _ _ Hc)) as (o & k' & Ho & _ & Hw & _).
    replace (c * bs + k) with (bs * (size_local (maps r) + (c - size_local (maps r))) + k) by nia.
    rewrite (Hgh _ g o k Hc Ho Hw Hk). rewrite Nat.mul_comm. rewrite (gvec_owned o (g - im_lo (maps o)) k Hs Ho) by (unfold owns in Hw; unfold size_local; lia).
    f_equal. f_equal. unfold owns in Hw. lia.
Qed.
End Size.

Section Dist.
Context {T : Type}.
Variables (zero one : T) (add mul sub : T -> T -> T) (opp : T -> T).
Hypothesis Rth : ring_theory zero one add mul sub opp eq.
Add Ring Tr : Rth.
Variables (P : nat) (maps0 maps1 : nat -> imap) (bs0 bs1 : nat) (mats : nat -> csr T) (offs : nat -> list nat).
Hypothesis Hok0 : maps_ok P maps0.
Hypothesis Hok1 : maps_ok P maps1.
Hypothesis Hm : mats_ok P maps0 maps1 bs0 bs1 mats.
Hypothesis Hoffs : offs_ok P maps0 maps1 offs mats.
Notation ls0 q := (size_local (maps0 q)).
Notation ls1 q := (size_local (maps1 q)).
Notation ng0 q := (num_ghosts (maps0 q)).
Notation ng1 q := (num_ghosts (maps1 q)).
Notation rws q := (rowsof (mats q)).
Notation bs2 := (bs0 * bs1).
Notation tsum := (VectorOps.tsum T zero add).
Notation gc q c := (gcol maps1 q c).
Notation ent := (entry zero maps0 maps1 bs0 bs1 mats).
Let Hrows := rows_ok P maps0 maps1 bs0 bs1 mats Hm.
Let Hbs := bs_ok P maps0 maps1 bs0 bs1 mats Hm.
Let Hdat := data_ok P maps0 maps1 bs0 bs1 mats Hm.
Let Hgc := gcol_ok P maps0 maps1 bs0 bs1 mats Hok1 Hm.

Definition cl q j := nth j (concat (rws q)) 0.
Definition val q j k0 k1 := nth (j * bs2 + (k0 * bs1 + k1)) (mt_data (mats q)) zero.

(** Sums over the positions of a row. *)
Lemma row_positions q i (h : nat -> nat -> T) : q < P -> i < ls0 q + ng0 q ->
  tsum (map (fun j => h (cl q j) j) (seq (off (rws q) i) (off (rws q) (S i) - off (rws q) i))) = tsum (map (fun c => h c (pos (rws q) i c)) (R (rws q) i)).
Proof.
  intros Hq Hi. destruct (Hrows q Hq) as (E1 & E2 & E3 & E4). rewrite off_S by lia. replace (off (rws q) i + length (R (rws q) i) - off (rws q) i) with (length (R (rws q) i)) by lia.
  rewrite (seq_shift_map (off (rws q) i)), map_map. f_equal. apply map_seq_nth. intros t c Hc.
  assert (Hp : pos (rws q) i c = off (rws q) i + t).
  { unfold pos, idx. rewrite (index_in_nth c _ t); [reflexivity|apply SS_lt_NoDup, R_sorted, E3|exact Hc]. }
  rewrite Hp. f_equal. unfold cl. apply nth_error_nth. rewrite <- Hp. apply pos_nth; [exact E3|]. eapply nth_error_In; eauto.
Qed.

Lemma ent_val q i G c k0 k1 : q < P -> local_to_global (maps0 q) i = Some G -> In c (R (rws q) i) -> k0 < bs0 -> k1 < bs1 ->
  val q (pos (rws q) i c) k0 k1 = ent q G (gc q c) k0 k1.
Proof.
  intros Hq Hi Hc Hk0 Hk1. rewrite (entry_at zero P maps0 maps1 bs0 bs1 Hok0 Hok1 mats q G _ i c k0 k1 Hq Hi) by (eapply Hgc; eauto).
  destruct (Hrows q Hq) as (E1 & E2 & E3 & E4). destruct (Hbs q Hq) as (B0 & B1). rewrite (dense_R zero (mats q) (rws q) bs0 bs1) by assumption.
  destruct (index_in_in _ _ Hc) as (t & Et). rewrite Et. unfold val, pos, idx. now rewrite Et.
Qed.
Lemma ent_zero q i G g k0 k1 : q < P -> local_to_global (maps0 q) i = Some G -> k0 < bs0 -> k1 < bs1 ->
  (forall c, In c (R (rws q) i) -> gc q c <> g) -> ent q G g k0 k1 = zero.
Proof.
  intros Hq Hi Hk0 Hk1 Hno. unfold entry. rewrite (proj2 (gidx P maps0 q G i Hok0 Hq) Hi). destruct (index_in g (global_indices (maps1 q))) as [c|] eqn:Ec; [|reflexivity].
  apply (gidx P maps1 q g c Hok1 Hq) in Ec. destruct (Hrows q Hq) as (E1 & E2 & E3 & E4). destruct (Hbs q Hq) as (B0 & B1).
  rewrite (dense_R zero (mats q) (rws q) bs0 bs1) by assumption. destruct (index_in c (R (rws q) i)) as [t|] eqn:Et; [|reflexivity].
  exfalso. apply index_in_some, nth_error_In in Et. apply (Hno c Et). unfold gcol. now rewrite Ec.
Qed.
Lemma gc_inj q i c c' : q < P -> In c (R (rws q) i) -> In c' (R (rws q) i) -> gc q c = gc q c' -> c = c'.
Proof.
  intros Hq Hc Hc' E. apply (l2g_inj P maps1 q c c' (gc q c) Hok1 Hq); [eapply Hgc; eauto|rewrite E; eapply Hgc; eauto].
Qed.

(** ... as sums over global columns. *)
Lemma row_global q i (H : nat -> T) : q < P -> (forall g, (forall c, In c (R (rws q) i) -> gc q c <> g) -> H g = zero) ->
  tsum (map (fun c => H (gc q c)) (R (rws q) i)) = tsum (map H (seq 0 (global_size P maps1))).
Proof.
  intros Hq Hz. destruct (Hrows q Hq) as (E1 & E2 & E3 & E4). rewrite (tsum_support zero one add mul sub opp Rth H (map (fun c => gc q c) (R (rws q) i))).
  - now rewrite map_map.
  - apply NoDup_map_inj; [apply SS_lt_NoDup, R_sorted, E3|]. intros c c' Hc Hc'. now apply (gc_inj q i).
  - apply seq_NoDup.
  - intros g Hg. apply in_map_iff in Hg as (c & <- & Hc). destruct (l2g_owned P maps1 Hok1 q c _ Hq (Hgc q i c Hq Hc)) as (o & Ho & Hw).
    apply in_seq. pose proof (owned_lt P maps1 Hok1 o _ Ho Hw). lia.
  - intros g _ Hg. apply Hz. intros c Hc E. apply Hg. apply in_map_iff. eauto.
Qed.

Lemma gmat_owner q G g k0 k1 : q < P -> owns (maps0 q) G -> gmat zero P maps0 maps1 bs0 bs1 mats G g k0 k1 = ent q G g k0 k1.
Proof. intros Hq HG. unfold gmat. now rewrite (find_owner P maps0 Hok0 q G Hq HG). Qed.

(** Spans. *)
Definition D r i := nth i (offs r) 0.
Lemma D_ok r i : r < P -> i < ls0 r -> nth_error (offs r) i = Some (D r i) /\ off (rws r) i <= D r i <= off (rws r) (S i) /\
  forall j, off (rws r) i <= j < D r i -> cl r j < ls1 r.
Proof.
  intros Hr Hi. destruct (Hoffs r Hr) as (Hl & Hi'). destruct (Hi' i Hi) as (a & d & b & Ea & Ed & Eb & Hab & Hc).
  destruct (Hrows r Hr) as (E1 & E2 & E3 & E4). rewrite E2 in Ea, Eb. rewrite rp_nth in Ea, Eb by lia. injection Ea as <-. injection Eb as <-.
  assert (Dd : D r i = d) by (apply nth_error_nth; exact Ed). rewrite Dd. split; [exact Ed|]. split; [exact Hab|].
  intros j Hj. apply (Hc j); [lia| |lia]. rewrite E1. unfold cl. apply nth_error_nth_some.
  assert (off (rws r) (S i) <= length (concat (rws r))); [|lia]. rewrite <- lsum_concat_length. unfold off.
  rewrite <- (firstn_skipn (S i) (map (@length nat) (rws r))) at 2. rewrite lsum_app. lia.
Qed.

Lemma spans_ok r : r < P -> spans maps0 mats offs r =
  Some (firstn (ls0 r) (mt_rp (mats r)), firstn (ls0 r) (tl (mt_rp (mats r))), firstn (ls0 r) (offs r),
        firstn (off (rws r) (ls0 r)) (mt_cols (mats r)), firstn (off (rws r) (ls0 r) * bs0 * bs1) (mt_data (mats r))).
Proof.
  intro Hr. unfold spans. destruct (Hoffs r Hr) as (Hl & _). pose proof (mk_rows _ _ _ _ _ _ Hm r Hr) as Hrp.
  replace ((ls0 r + 1 <=? length (mt_rp (mats r))) && (ls0 r <=? length (offs r))) with true.
  2:{ symmetry. apply Bool.andb_true_iff. rewrite !Nat.leb_le. lia. }
  destruct (Hrows r Hr) as (E1 & E2 & E3 & E4). destruct (Hbs r Hr) as (-> & ->). rewrite E2 at 1. rewrite rp_nth by lia. reflexivity.
Qed.

Section Rank.
Variable r : nat.
Hypothesis Hr : r < P.
Notation rb := (firstn (ls0 r) (mt_rp (mats r))).
Notation re := (firstn (ls0 r) (tl (mt_rp (mats r)))).
Notation od := (firstn (ls0 r) (offs r)).
Notation cols := (firstn (off (rws r) (ls0 r)) (mt_cols (mats r))).
Notation values := (firstn (off (rws r) (ls0 r) * bs0 * bs1) (mt_data (mats r))).

Lemma span_len : length rb = ls0 r /\ length re = ls0 r /\ length od = ls0 r.
Proof.
  destruct (Hoffs r Hr) as (Hl & _). pose proof (mk_rows _ _ _ _ _ _ Hm r Hr) as Hrp. rewrite !firstn_length.
  destruct (mt_rp (mats r)) as [|a t]; cbn [tl length] in *; lia.
Qed.
Lemma span_nth i : i < ls0 r -> nth_error rb i = Some (off (rws r) i) /\ nth_error re i = Some (off (rws r) (S i)) /\ nth_error od i = Some (D r i).
Proof.
  intro Hi. destruct (Hrows r Hr) as (E1 & E2 & E3 & E4). rewrite !nth_error_firstn by exact Hi. split; [|split].
  - rewrite E2. apply rp_nth. lia.
  - assert (E : nth_error (mt_rp (mats r)) (S i) = Some (off (rws r) (S i))) by (rewrite E2; apply rp_nth; lia).
    destruct (mt_rp (mats r)) as [|a t]; [discriminate|exact E].
  - now apply D_ok.
Qed.
Lemma span_val i j : i < ls0 r -> off (rws r) i <= j < off (rws r) (S i) -> nth_error cols j = Some (cl r j) /\ In (cl r j) (R (rws r) i) /\
  forall k0 k1, k0 < bs0 -> k1 < bs1 -> nth_error values (j * bs0 * bs1 + k0 * bs1 + k1) = Some (val r j k0 k1).
Proof.
  intros Hi Hj. destruct (Hrows r Hr) as (E1 & E2 & E3 & E4).
  assert (Hle : off (rws r) (S i) <= off (rws r) (ls0 r)) by (apply off_mono; lia).
  assert (Hle' : off (rws r) (ls0 r) <= length (concat (rws r))).
  { rewrite <- lsum_concat_length. unfold off. rewrite <- (firstn_skipn (ls0 r) (map (@length nat) (rws r))) at 2. rewrite lsum_app. lia. }
  rewrite nth_error_firstn by lia. split; [rewrite E1; apply nth_error_nth_some; lia|]. split.
  - unfold cl. rewrite off_S in Hj by lia. assert (Ht : j - off (rws r) i < length (R (rws r) i)) by lia.
    pose proof (nth_error_nth_some (R (rws r) i) _ 0 Ht) as Hc. pose proof (nth_error_In _ _ Hc) as Hin.
    assert (Hp : pos (rws r) i (nth (j - off (rws r) i) (R (rws r) i) 0) = j).
    { unfold pos, idx. rewrite (index_in_nth _ _ _ (SS_lt_NoDup _ (R_sorted _ E3 i)) Hc). lia. }
    pose proof (pos_nth (rws r) E3 i _ Hin) as En. rewrite Hp in En. rewrite (nth_error_nth _ _ 0 En). exact Hin.
  - intros k0 k1 Hk0 Hk1. assert (Hb : (j + 1) * bs2 <= off (rws r) (ls0 r) * bs2) by (apply Nat.mul_le_mono_r; lia).
    assert (Hjj : k0 * bs1 + k1 < bs2) by nia.
    replace (j * bs0 * bs1 + k0 * bs1 + k1) with (j * bs2 + (k0 * bs1 + k1)) by lia.
    rewrite nth_error_firstn by lia. apply nth_error_nth_some. rewrite (Hdat r Hr).
    assert (Hb' : off (rws r) (ls0 r) * bs2 <= length (concat (rws r)) * bs2) by (apply Nat.mul_le_mono_r; lia). lia.
Qed.

Lemma l2g_row i : i < ls0 r -> local_to_global (maps0 r) i = Some (im_lo (maps0 r) + i) /\ owns (maps0 r) (im_lo (maps0 r) + i).
Proof. intro Hi. split; [now apply l2g_own|]. unfold owns. unfold size_local in Hi. lia. Qed.
End Rank.

(** ** mult *)
Section Mult.
Variables xs ys : nat -> list T.
Hypothesis Hx : full_size P maps1 bs1 xs.
Hypothesis Hy : forall r, r < P -> bs0 * ls0 r <= length (ys r).

Lemma mult_statement : forall r, r < P -> exists x' y', mult zero add P maps0 maps1 mats mul offs xs ys r = Some (x', y') /\
  vec_scatter_fwd P maps1 bs1 T xs r = Some x' /\ length y' = length (ys r) /\
  (forall i k0, i < ls0 r -> k0 < bs0 ->
     nth (i * bs0 + k0) y' zero = add (nth (i * bs0 + k0) (ys r) zero) (product zero add mul P maps0 maps1 bs0 bs1 mats xs (im_lo (maps0 r) + i) k0)) /\
  (forall p, bs0 * ls0 r <= p -> nth_error y' p = nth_error (ys r) p).
Proof.
  intros r Hr. destruct (fwd_stmt P maps1 bs1 T zero xs Hok1 Hx) as (xf & Hxf).
  assert (Hxv : forall c g k, local_to_global (maps1 r) c = Some g -> k < bs1 -> nth_error (xf r) (c * bs1 + k) = Some (gvec zero P maps1 bs1 xs g k)).
  { intros c g k. apply (gvec_fwd P maps1 Hok1 zero bs1 xs xf Hx); [|exact Hr]. intros q Hq. destruct (Hxf q Hq) as (_ & A & B & C & _). auto. }
  assert (Hxo : forall c k, c < ls1 r -> k < bs1 -> nth_error (xs r) (c * bs1 + k) = Some (gvec zero P maps1 bs1 xs (im_lo (maps1 r) + c) k)).
  { intros c k Hc Hk. apply gvec_owned; auto. intros q Hq. rewrite (Hx q Hq). nia. }
  destruct (Hxf r Hr) as (Ef & _). unfold mult. rewrite spans_ok by exact Hr. cbn [obind]. destruct (Hbs r Hr) as (-> & ->).
  destruct (span_len r Hr) as (L1 & L2 & L3). set (xv := fun c k => gvec zero P maps1 bs1 xs (gc r c) k).
  destruct (spmv_ok zero one add mul sub opp Rth bs0 bs1 (firstn (off (rws r) (ls0 r) * bs0 * bs1) (mt_data (mats r))) _ _ (firstn (off (rws r) (ls0 r)) (mt_cols (mats r))) (xs r) (ys r) (ls0 r)
             (off (rws r)) (D r) (cl r) (val r) xv L1 L3) as (y1 & E1 & Hl1 & Hv1 & Hr1).
  { intros i Hi. destruct (span_nth r Hr i Hi) as (A & B & C). auto. }
  { intros i j Hi Hj. destruct (D_ok r i Hr Hi) as (_ & Hd & Hcl). destruct (span_val r Hr i j Hi) as (A & B & C); [lia|]. split; [exact A|].
    intros k0 k1 Hk0 Hk1. split; [now apply C|]. rewrite Hxo by auto. unfold xv. f_equal. f_equal.
    pose proof (Hgc r i _ Hr B) as E. rewrite l2g_own in E by auto. congruence. }
  { specialize (Hy r Hr). lia. }
  rewrite E1. cbn [obind]. rewrite Ef. cbn [obind].
  destruct (spmv_ok zero one add mul sub opp Rth bs0 bs1 (firstn (off (rws r) (ls0 r) * bs0 * bs1) (mt_data (mats r))) _ _ (firstn (off (rws r) (ls0 r)) (mt_cols (mats r))) (xf r) y1 (ls0 r)
             (D r) (fun i => off (rws r) (S i)) (cl r) (val r) xv L3 L2) as (y2 & E2 & Hl2 & Hv2 & Hr2).
  { intros i Hi. destruct (span_nth r Hr i Hi) as (A & B & C). auto. }
  { intros i j Hi Hj. destruct (D_ok r i Hr Hi) as (_ & Hd & Hcl). destruct (span_val r Hr i j Hi) as (A & B & C); [lia|]. split; [exact A|].
    intros k0 k1 Hk0 Hk1. split; [now apply C|]. apply Hxv; [|exact Hk1]. eapply Hgc; eauto. }
  { specialize (Hy r Hr). lia. }
  rewrite E2. cbn [obind]. exists (xf r), y2. split; [reflexivity|]. split; [reflexivity|]. split; [lia|]. split.
  2:{ intros p Hp. rewrite Hr2, Hr1 by lia. reflexivity. }
  intros i k0 Hi Hk0. rewrite Hv2, Hv1 by assumption. destruct (l2g_row r Hr i Hi) as (Ei & HG).
  set (h := fun c j => tsum (map (fun k1 => mul (val r j k0 k1) (xv c k1)) (seq 0 bs1))).
  change (add (add (nth (i * bs0 + k0) (ys r) zero) (tsum (map (fun j => h (cl r j) j) (seq (off (rws r) i) (D r i - off (rws r) i)))))
              (tsum (map (fun j => h (cl r j) j) (seq (D r i) (off (rws r) (S i) - D r i)))) =
          add (nth (i * bs0 + k0) (ys r) zero) (product zero add mul P maps0 maps1 bs0 bs1 mats xs (im_lo (maps0 r) + i) k0)).
  transitivity (add (nth (i * bs0 + k0) (ys r) zero) (tsum (map (fun j => h (cl r j) j) (seq (off (rws r) i) (off (rws r) (S i) - off (rws r) i))))).
  { destruct (D_ok r i Hr Hi) as (_ & Hd & _). rewrite (seq_split _ _ _ Hd), map_app, (tsum_app T zero one add mul sub opp Rth). ring. }
  f_equal. rewrite (row_positions r i h Hr) by lia. unfold product.
  rewrite <- (row_global r i (fun g => tsum (map (fun k1 => mul (gmat zero P maps0 maps1 bs0 bs1 mats (im_lo (maps0 r) + i) g k0 k1) (gvec zero P maps1 bs1 xs g k1)) (seq 0 bs1))) Hr).
  - f_equal. apply map_ext_in. intros c Hc. unfold h. f_equal. apply map_ext_in. intros k1 Hk1. apply in_seq in Hk1. unfold xv. f_equal.
    rewrite (gmat_owner r) by assumption. apply ent_val; auto. lia.
  - intros g Hg. apply (tsum_zero zero one add mul sub opp Rth). intros k1 Hk1. apply in_seq in Hk1. rewrite (gmat_owner r) by assumption.
    rewrite (ent_zero r i) by (auto; lia). ring.
Qed.
End Mult.

Lemma tsum_swap {A B} (f : A -> B -> T) la lb :
  tsum (map (fun a => tsum (map (f a) lb)) la) = tsum (map (fun b => tsum (map (fun a => f a b) la)) lb).
Proof.
  induction la as [|a t IH]; cbn [map].
  - rewrite tsum_nil. symmetry. apply (tsum_zero zero one add mul sub opp Rth). reflexivity.
  - rewrite tsum_cons, IH. rewrite <- (tsum_map_add T zero one add mul sub opp Rth). apply tsum_ext. intros b _. now rewrite tsum_cons.
Qed.
Lemma tsum_single {A} (f : A -> T) l x : NoDup l -> In x l -> (forall y, In y l -> y <> x -> f y = zero) -> tsum (map f l) = f x.
Proof.
  intros Hn Hi H. apply in_split in Hi as (l1 & l2 & ->). rewrite map_app. cbn [map]. rewrite (tsum_app T zero one add mul sub opp Rth), tsum_cons.
  apply NoDup_remove_2 in Hn. rewrite !(tsum_zero zero one add mul sub opp Rth); [ring| |]; intros y Hy; apply H.
  - apply in_app_iff. right. now right.
  - intros ->. apply Hn. apply in_app_iff. now right.
  - apply in_app_iff. now left.
  - intros ->. apply Hn. apply in_app_iff. now left.
Qed.

(** ** multT *)
Section MultT.
Variables xs ys : nat -> list T.
Hypothesis Hx : forall r, r < P -> bs0 * ls0 r <= length (xs r).
Hypothesis Hy : full_size P maps1 bs1 ys.
Notation xg G k0 := (gvec zero P maps0 bs0 xs G k0).

(** Contributions to column [c] of the positions from [A] to [B] of each row. *)
Definition con q (A B : nat -> nat) c k1 :=
  tsum (map (fun k0 => tsum (map (fun i => tsum (map (fun j => if cl q j =? c then mul (val q j k0 k1) (xg (im_lo (maps0 q) + i) k0) else zero)
    (seq (A i) (B i - A i)))) (seq 0 (ls0 q)))) (seq 0 bs0)).
(** ... of the whole rows, as a sum over global entries. *)
Definition Eq q g k1 := tsum (map (fun i => tsum (map (fun k0 => mul (ent q (im_lo (maps0 q) + i) g k0 k1) (xg (im_lo (maps0 q) + i) k0)) (seq 0 bs0))) (seq 0 (ls0 q))).

Lemma con_split q c k1 : q < P -> add (con q (off (rws q)) (D q) c k1) (con q (D q) (fun i => off (rws q) (S i)) c k1) = con q (off (rws q)) (fun i => off (rws q) (S i)) c k1.
Proof.
  intro Hq. unfold con. rewrite <- (tsum_map_add T zero one add mul sub opp Rth). apply tsum_ext. intros k0 _.
  rewrite <- (tsum_map_add T zero one add mul sub opp Rth). apply tsum_ext. intros i Hi. apply in_seq in Hi.
  destruct (D_ok q i Hq) as (_ & Hd & _); [lia|]. rewrite (seq_split _ _ _ Hd), map_app, (tsum_app T zero one add mul sub opp Rth). reflexivity.
Qed.
Lemma con_diag_ghost q c k1 : q < P -> ls1 q <= c -> con q (off (rws q)) (D q) c k1 = zero.
Proof.
  intros Hq Hc. unfold con. apply (tsum_zero zero one add mul sub opp Rth). intros k0 _. apply (tsum_zero zero one add mul sub opp Rth). intros i Hi. apply in_seq in Hi.
  apply (tsum_zero zero one add mul sub opp Rth). intros j Hj. apply in_seq in Hj. destruct (D_ok q i Hq) as (_ & Hd & Hcl); [lia|].
  destruct (Nat.eqb_spec (cl q j) c) as [E|]; [|reflexivity]. specialize (Hcl j). lia.
Qed.
Lemma con_full q c g k1 : q < P -> local_to_global (maps1 q) c = Some g -> k1 < bs1 ->
  con q (off (rws q)) (fun i => off (rws q) (S i)) c k1 = Eq q g k1.
Proof.
  intros Hq Hc Hk1. unfold Eq. rewrite tsum_swap. unfold con. apply tsum_ext. intros k0 Hk0. apply in_seq in Hk0. apply tsum_ext. intros i Hi. apply in_seq in Hi.
  destruct (l2g_row q Hq i) as (Ei & HG); [lia|]. destruct (Hrows q Hq) as (E1 & E2 & E3 & E4).
  rewrite (row_positions q i (fun c' j => if c' =? c then mul (val q j k0 k1) (xg (im_lo (maps0 q) + i) k0) else zero) Hq) by lia.
  destruct (in_dec Nat.eq_dec c (R (rws q) i)) as [Hin|Hno].
  - rewrite (tsum_single _ _ c); [|apply SS_lt_NoDup, R_sorted, E3|exact Hin|].
    + rewrite Nat.eqb_refl. f_equal. rewrite (ent_val q i (im_lo (maps0 q) + i) c k0 k1) by (auto; lia). f_equal. unfold gcol. now rewrite Hc.
    + intros c' _ N. destruct (Nat.eqb_spec c' c); [contradiction|reflexivity].
  - rewrite (tsum_zero zero one add mul sub opp Rth).
    + assert (Hno' : forall c', In c' (R (rws q) i) -> gc q c' <> g).
      { intros c' Hc' E. apply Hno. replace c with c'; [exact Hc'|]. apply (l2g_inj P maps1 q _ _ g Hok1 Hq); [rewrite <- E; eapply Hgc; eauto|exact Hc]. }
      rewrite (ent_zero q i) by (auto; lia). ring.
    + intros c' Hc'. destruct (Nat.eqb_spec c' c) as [->|]; [contradiction|reflexivity].
Qed.
Lemma Eq_zero q g k1 : q < P -> k1 < bs1 -> (forall c, local_to_global (maps1 q) c <> Some g) -> Eq q g k1 = zero.
Proof.
  intros Hq Hk1 Hno. unfold Eq. apply (tsum_zero zero one add mul sub opp Rth). intros i Hi. apply in_seq in Hi. apply (tsum_zero zero one add mul sub opp Rth). intros k0 Hk0. apply in_seq in Hk0.
  destruct (l2g_row q Hq i) as (Ei & HG); [lia|].
  assert (Hno' : forall c', In c' (R (rws q) i) -> gc q c' <> g) by (intros c Hc E; apply (Hno c); rewrite <- E; eapply Hgc; eauto).
  rewrite (ent_zero q i) by (auto; lia). ring.
Qed.
Lemma product_T_ranks g k1 : product_T zero add mul P maps0 maps1 bs0 bs1 mats xs g k1 = tsum (map (fun q => Eq q g k1) (seq 0 P)).
Proof.
  unfold product_T. rewrite <- (global_seq P maps0 Hok0). rewrite (tsum_concat_map T zero one add mul sub opp Rth). apply tsum_ext. intros q Hq. apply in_seq in Hq.
  rewrite map_map. unfold Eq. apply tsum_ext. intros i Hi. apply in_seq in Hi. apply tsum_ext. intros k0 _. f_equal. apply gmat_owner; [lia|].
  apply (l2g_row q); lia.
Qed.

Lemma xs_val q i k0 : q < P -> i < ls0 q -> k0 < bs0 -> nth_error (xs q) (i * bs0 + k0) = Some (xg (im_lo (maps0 q) + i) k0).
Proof. intros. apply gvec_owned; auto. Qed.

Lemma ghost_stage q : q < P -> exists y1, multT_ghost zero add maps0 maps1 mats mul offs xs ys q = Some y1 /\ length y1 = length (ys q) /\
  forall c k1, c < ls1 q + ng1 q -> k1 < bs1 -> nth (c * bs1 + k1) y1 zero =
    add (if c <? ls1 q then nth (c * bs1 + k1) (ys q) zero else zero) (con q (D q) (fun i => off (rws q) (S i)) c k1).
Proof.
  intro Hq. unfold multT_ghost. rewrite spans_ok by exact Hq. cbn [obind]. destruct (Hbs q Hq) as (-> & ->). destruct (span_len q Hq) as (L1 & L2 & L3).
  set (y0 := firstn (ls1 q * bs1) (ys q) ++ repeat zero (length (ys q) - ls1 q * bs1)).
  assert (Hl0 : length y0 = length (ys q)) by (unfold y0; rewrite app_length, firstn_length, repeat_length; lia).
  destruct (spmvT_ok zero one add mul sub opp Rth bs0 bs1 (firstn (off (rws q) (ls0 q) * bs0 * bs1) (mt_data (mats q))) _ _ (firstn (off (rws q) (ls0 q)) (mt_cols (mats q))) (xs q) y0 (ls0 q) (ls1 q + ng1 q)
             (D q) (fun i => off (rws q) (S i)) (cl q) (val q) (fun i k0 => xg (im_lo (maps0 q) + i) k0) L3 L2) as (y1 & E1 & Hl1 & Hv1).
  { intros i Hi. destruct (span_nth q Hq i Hi) as (A & B & C). auto. }
  { intros i k0 Hi Hk0. now apply xs_val. }
  { intros i j Hi Hj. destruct (D_ok q i Hq Hi) as (_ & Hd & Hcl). destruct (span_val q Hq i j Hi) as (A & B & C); [lia|]. split; [exact A|]. split; [|exact C].
    apply (mk_cols _ _ _ _ _ _ Hm q _ Hq). destruct (Hrows q Hq) as (-> & _). eapply in_R_concat; eauto. }
  { rewrite Hl0, (Hy q Hq). lia. }
  exists y1. split; [exact E1|]. split; [lia|]. intros c k1 Hc Hk1. rewrite Hv1 by assumption. f_equal. unfold y0. rewrite nth_cut.
  destruct (Nat.ltb_spec c (ls1 q)) as [L|L]; destruct (Nat.ltb_spec (c * bs1 + k1) (ls1 q * bs1)) as [L'|L']; try reflexivity; nia.
Qed.

Lemma multT_statement : forall r, r < P -> exists y', multT zero add P maps0 maps1 mats mul offs xs ys r = Some y' /\ length y' = length (ys r) /\
  forall c k1, c < ls1 r -> k1 < bs1 -> nth (c * bs1 + k1) y' zero =
    add (nth (c * bs1 + k1) (ys r) zero) (product_T zero add mul P maps0 maps1 bs0 bs1 mats xs (im_lo (maps1 r) + c) k1).
Proof.
  intros r Hr. set (y1 := fun q => match multT_ghost zero add maps0 maps1 mats mul offs xs ys q with Some y => y | None => [] end).
  assert (Hy1 : forall q, q < P -> multT_ghost zero add maps0 maps1 mats mul offs xs ys q = Some (y1 q) /\ length (y1 q) = length (ys q) /\
    forall c k1, c < ls1 q + ng1 q -> k1 < bs1 -> nth (c * bs1 + k1) (y1 q) zero =
    add (if c <? ls1 q then nth (c * bs1 + k1) (ys q) zero else zero) (con q (D q) (fun i => off (rws q) (S i)) c k1)).
  { intros q Hq. destruct (ghost_stage q Hq) as (y & E & H). unfold y1. rewrite E. auto. }
  assert (Hf1 : full_size P maps1 bs1 y1) by (intros q Hq; rewrite (proj1 (proj2 (Hy1 q Hq))); now apply Hy).
  destruct (rev_sum_stmt P maps1 bs1 T zero one add mul sub opp y1 Rth Hok1 Hf1 r Hr) as (y2 & E2 & Hl2 & Hv2 & _).
  destruct (span_len r Hr) as (L1 & L2 & L3). destruct (Hy1 r Hr) as (_ & Hly1 & Hvy1).
  unfold multT. rewrite spans_ok by exact Hr. cbn [obind]. destruct (Hbs r Hr) as (-> & ->).
  rewrite omap_map with (g := y1) by (intros q Hq; apply in_seq in Hq; apply Hy1; lia). cbn [obind]. fold y1. rewrite E2. cbn [obind].
  destruct (spmvT_ok zero one add mul sub opp Rth bs0 bs1 (firstn (off (rws r) (ls0 r) * bs0 * bs1) (mt_data (mats r))) _ _ (firstn (off (rws r) (ls0 r)) (mt_cols (mats r))) (xs r) y2 (ls0 r) (ls1 r)
             (off (rws r)) (D r) (cl r) (val r) (fun i k0 => xg (im_lo (maps0 r) + i) k0) L1 L3) as (y3 & E3 & Hl3 & Hv3).
  { intros i Hi. destruct (span_nth r Hr i Hi) as (A & B & C). auto. }
  { intros i k0 Hi Hk0. now apply xs_val. }
  { intros i j Hi Hj. destruct (D_ok r i Hr Hi) as (_ & Hd & Hcl). destruct (span_val r Hr i j Hi) as (A & B & C); [lia|]. auto. }
  { rewrite Hl2, (Hf1 r Hr). nia. }
  exists y3. split; [exact E3|]. split; [lia|]. intros c k1 Hc Hk1. rewrite Hv3 by assumption. fold (con r (off (rws r)) (D r) c k1).
  assert (Hlt : bs1 * c + k1 < length (y1 r)) by (rewrite (Hf1 r Hr); nia).
  assert (Hg2 : nth (c * bs1 + k1) y2 zero = add (nth (c * bs1 + k1) (y1 r) zero) (tsum (ghost_copies P maps1 bs1 zero y1 (im_lo (maps1 r) + c) k1))).
  { rewrite (Nat.mul_comm c). apply nth_error_nth. apply Hv2; [exact Hc|exact Hk1|]. now apply nth_error_nth_some. }
  rewrite Hg2, Hvy1 by (auto; lia). destruct (Nat.ltb_spec c (ls1 r)) as [_|]; [|lia]. rewrite product_T_ranks.
  set (g := im_lo (maps1 r) + c). assert (Hgown : owns (maps1 r) g) by (unfold owns, g; unfold size_local in Hc; lia).
  assert (Hgl : local_to_global (maps1 r) c = Some g) by (now apply l2g_own).
  assert (Hcopies : tsum (ghost_copies P maps1 bs1 zero y1 g k1) = tsum (map (fun q => if q =? r then zero else Eq q g k1) (seq 0 P))).
  { unfold ghost_copies. rewrite (tsum_concat T zero one add mul sub opp Rth), map_map. apply tsum_ext. intros q Hq. apply in_seq in Hq. unfold ghost_copy.
    destruct (index_in g (im_ghosts (maps1 q))) as [k|] eqn:Ek.
    - apply index_in_some in Ek. destruct (Nat.eqb_spec q r) as [->|N]; [exfalso; apply (ghost_not_owned P maps1 Hok1 r g Hr (nth_error_In _ _ Ek) Hgown)|].
      rewrite tsum_cons, tsum_nil. destruct (Hy1 q) as (_ & _ & Hvq); [lia|]. rewrite (Nat.mul_comm bs1), Hvq; [|apply nth_error_bound in Ek; unfold num_ghosts; lia|exact Hk1].
      destruct (Nat.ltb_spec (ls1 q + k) (ls1 q)); [lia|]. rewrite <- (con_full q (ls1 q + k) g k1); [|lia| |exact Hk1].
      + rewrite <- con_split by lia. rewrite con_diag_ghost by lia. ring.
      + unfold local_to_global. destruct (Nat.ltb_spec (ls1 q + k) (ls1 q)); [lia|]. replace (ls1 q + k - ls1 q) with k by lia. exact Ek.
    - rewrite tsum_nil. destruct (Nat.eqb_spec q r) as [E|N]; [reflexivity|]. symmetry. apply Eq_zero; [lia|exact Hk1|]. intros c' Hc'. unfold local_to_global in Hc'.
      destruct (Nat.ltb_spec c' (ls1 q)) as [L|L].
      + apply N. apply (owner_unique P maps1 Hok1 q r g); [lia|exact Hr| |exact Hgown]. injection Hc' as <-. unfold owns. unfold size_local in L. lia.
      + apply nth_error_In in Hc'. destruct (index_in_in _ _ Hc') as (? & ?). congruence. }
  rewrite Hcopies.
  assert (Hsum : tsum (map (fun q => Eq q g k1) (seq 0 P)) = add (Eq r g k1) (tsum (map (fun q => if q =? r then zero else Eq q g k1) (seq 0 P)))).
  { assert (Hone : tsum (map (fun q => if q =? r then Eq q g k1 else zero) (seq 0 P)) = Eq r g k1).
    { rewrite (tsum_single _ _ r); [now rewrite Nat.eqb_refl|apply seq_NoDup|apply in_seq; lia|].
      intros q _ N. destruct (Nat.eqb_spec q r); [contradiction|reflexivity]. }
    rewrite <- Hone, <- (tsum_map_add T zero one add mul sub opp Rth). apply tsum_ext. intros q _. destruct (q =? r); ring. }
  rewrite Hsum, <- (con_full r c g k1 Hr Hgl Hk1), <- con_split by exact Hr. ring.
Qed.
End MultT.

(** ** squared_norm *)
Lemma off_seq q n : n <= length (rws q) -> seq 0 (off (rws q) n) = concat (map (fun i => seq (off (rws q) i) (off (rws q) (S i) - off (rws q) i)) (seq 0 n)).
Proof.
  induction n as [|n IH]; intro H; [reflexivity|]. rewrite seq_S, map_app, concat_app, <- IH by lia. cbn [map concat plus]. rewrite app_nil_r.
  rewrite off_S by lia. rewrite seq_app. f_equal. f_equal. lia.
Qed.
Lemma grid_seq a b : seq 0 (a * b) = concat (map (fun t => map (fun j => t * b + j) (seq 0 b)) (seq 0 a)).
Proof.
  induction a as [|a IH]; [reflexivity|]. rewrite seq_S, map_app, concat_app, <- IH. cbn [map concat plus]. rewrite app_nil_r.
  replace (S a * b) with (a * b + b) by lia. rewrite seq_app. f_equal. apply seq_shift_map.
Qed.
Lemma firstn_seq (l : list T) n : n <= length l -> firstn n l = map (fun p => nth p l zero) (seq 0 n).
Proof.
  intro H. apply nth_error_ext. intro i. rewrite nth_error_map_some. destruct (lt_dec i n) as [L|L].
  - rewrite nth_error_seq by exact L. rewrite nth_error_firstn by exact L. cbn [option_map plus]. apply nth_error_nth_some. lia.
  - rewrite (proj2 (nth_error_None _ _)) by (rewrite firstn_length; lia). rewrite (proj2 (nth_error_None _ _)) by (rewrite seq_length; lia). reflexivity.
Qed.

Lemma norm_statement (normv : T -> T) : normv zero = zero ->
  squared_norm zero add P maps0 mats normv =
  Some (tsum (map (fun G => tsum (map (fun g => tsum (map (fun k0 => tsum (map (fun k1 => normv (gmat zero P maps0 maps1 bs0 bs1 mats G g k0 k1)) (seq 0 bs1))) (seq 0 bs0)))
                                      (seq 0 (global_size P maps1)))) (seq 0 (global_size P maps0)))).
Proof.
  intro Hn0. unfold squared_norm.
  rewrite omap_map with (g := fun r => tsum (map normv (firstn (off (rws r) (ls0 r) * bs2) (mt_data (mats r))))).
  - cbn [obind]. f_equal. change (fold_right add zero) with tsum. rewrite <- (global_seq P maps0 Hok0), (tsum_concat_map T zero one add mul sub opp Rth).
    apply tsum_ext. intros q Hq. apply in_seq in Hq. assert (HqP : q < P) by lia. destruct (Hrows q HqP) as (E1 & E2 & E3 & E4).
    assert (Hle : off (rws q) (ls0 q) * bs2 <= length (mt_data (mats q))).
    { rewrite (Hdat q HqP), <- Nat.mul_assoc. apply Nat.mul_le_mono_r. rewrite <- lsum_concat_length. unfold off.
      rewrite <- (firstn_skipn (ls0 q) (map (@length nat) (rws q))) at 2. rewrite lsum_app. lia. }
    rewrite firstn_seq by exact Hle. rewrite map_map, grid_seq, (tsum_concat_map T zero one add mul sub opp Rth).
    rewrite (off_seq q) by lia. rewrite (tsum_concat_map T zero one add mul sub opp Rth). rewrite map_map. apply tsum_ext. intros i Hi. apply in_seq in Hi.
    destruct (l2g_row q HqP i) as (Ei & HG); [lia|].
    rewrite (row_positions q i (fun _ t => tsum (map (fun x => normv (nth x (mt_data (mats q)) zero)) (map (fun j => t * bs2 + j) (seq 0 bs2)))) HqP) by lia.
    rewrite <- (row_global q i (fun g => tsum (map (fun k0 => tsum (map (fun k1 => normv (gmat zero P maps0 maps1 bs0 bs1 mats (im_lo (maps0 q) + i) g k0 k1)) (seq 0 bs1))) (seq 0 bs0))) HqP).
    + apply tsum_ext. intros c Hc. rewrite map_map, grid_seq, (tsum_concat_map T zero one add mul sub opp Rth). apply tsum_ext. intros k0 Hk0. apply in_seq in Hk0.
      rewrite map_map. apply tsum_ext. intros k1 Hk1. apply in_seq in Hk1. f_equal. rewrite (gmat_owner q) by assumption. rewrite <- (ent_val q i) by (auto; lia). reflexivity.
    + intros g Hg. apply (tsum_zero zero one add mul sub opp Rth). intros k0 Hk0. apply in_seq in Hk0. apply (tsum_zero zero one add mul sub opp Rth). intros k1 Hk1. apply in_seq in Hk1.
      rewrite (gmat_owner q) by assumption. rewrite (ent_zero q i) by (auto; lia). exact Hn0.
  - intros r Hr. apply in_seq in Hr. assert (HrP : r < P) by lia. destruct (Hrows r HrP) as (E1 & E2 & E3 & E4). destruct (Hbs r HrP) as (-> & ->).
    rewrite E2, rp_nth by lia. cbn [obind].
    assert (Hle : off (rws r) (ls0 r) * bs2 <= length (mt_data (mats r))).
    { rewrite (Hdat r HrP), <- Nat.mul_assoc. apply Nat.mul_le_mono_r. rewrite <- lsum_concat_length. unfold off.
      rewrite <- (firstn_skipn (ls0 r) (map (@length nat) (rws r))) at 2. rewrite lsum_app. lia. }
    rewrite (proj2 (slice_some _ _ _ (firstn (off (rws r) (ls0 r) * bs2) (mt_data (mats r))))).
    + cbn [obind]. f_equal. rewrite <- (fold_left_map_add normv add). rewrite (fold_left_tsum T zero one add mul sub opp Rth). ring.
    + split; [lia|]. split; [exact Hle|]. rewrite Nat.sub_0_r. reflexivity.
Qed.
End Dist.
