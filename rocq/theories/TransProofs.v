(** Proofs about the distributed transpose. *)
From Verif Require Import Base BaseProofs BucketProofs Algo AlgoProofs Nbx World WorldProofs IndexMap IndexMapSpec IndexMapProofs ImSharedProofs ScattererProofs RoundTrip
  SubMapProofs SparsityProofs MatrixCSR MatrixSpec MatrixProofs MatrixDense MatrixPar MatrixParSpec MatrixParProofs SpmvProofs Collectives MatTrans MatOpsSpec TransLocal TransCopy PatternMats.
From Verif Require MultProofs.
From Verif Require StackProofs.
Open Scope nat_scope.

Lemma filter_map_comm {A B} (f : A -> B) (p : B -> bool) l : filter p (map f l) = map f (filter (fun x => p (f x)) l).
Proof. induction l as [|x t IH]; [reflexivity|]. cbn. destruct (p (f x)); cbn; now rewrite IH. Qed.
Lemma filter_concat_map {A B} (p : B -> bool) (f : A -> list B) l : filter p (concat (map f l)) = concat (map (fun x => filter p (f x)) l).
Proof. induction l as [|x t IH]; [reflexivity|]. cbn [map concat]. now rewrite filter_app, IH. Qed.

Lemma map_repeat {A B} (f : A -> B) x n : map f (repeat x n) = repeat (f x) n.
Proof. induction n as [|n IH]; [reflexivity|]. cbn. now rewrite IH. Qed.

Lemma SS_concat_by (f : nat -> list nat) l : StronglySorted lt l -> (forall s, In s l -> StronglySorted lt (f s)) ->
  (forall s s' c c', In s l -> In s' l -> s < s' -> In c (f s) -> In c' (f s') -> c < c') -> StronglySorted lt (concat (map f l)).
Proof.
  induction 1 as [|s l Hl IH Hf]; intros H1 H2; [constructor|]. cbn [map concat]. rewrite Forall_forall in Hf. apply SS_app; [apply H1; now left| |].
  - apply IH; [intros; apply H1; now right|]. intros a b c c' Ha Hb. apply H2; now right.
  - intros c c' Hc Hc'. apply in_concat in Hc' as (l' & Hl' & Hc'). apply in_map_iff in Hl' as (s' & <- & Hs'). apply (H2 s s'); auto; [now left|now right].
Qed.

Lemma combine_nth_error {A B} (a : list A) (b : list B) i :
  nth_error (combine a b) i = match nth_error a i, nth_error b i with Some x, Some y => Some (x, y) | _, _ => None end.
Proof.
  revert b i. induction a as [|u a IH]; intros [|v b] [|i]; cbn [combine nth_error]; try reflexivity.
  - now destruct (nth_error a i).
  - apply IH.
Qed.

Lemma incr_all keys : forall l, Forall (fun k => k < length l) keys ->
  ofold incr keys l = Some (map (fun k => nth k l 0 + countb (fun x => x =? k) keys) (seq 0 (length l))).
Proof.
  induction keys as [|a t IH]; intros l H.
  - cbn [ofold countb]. f_equal. transitivity (map (fun x => x) l); [symmetry; apply map_id|]. symmetry. apply map_seq_nth. intros k x Hx.
    rewrite (nth_error_nth _ _ _ Hx). lia.
  - inversion_clear H as [|? ? Ha Ht]. cbn [ofold]. unfold incr at 1. destruct (modify_some l a S Ha) as (l' & E). rewrite E. cbn [obind].
    pose proof (modify_length _ _ _ _ E) as L. rewrite IH by (now rewrite L). rewrite L. f_equal. apply map_ext_in. intros k Hk. apply in_seq in Hk.
    cbn [countb]. pose proof (modify_nth l l' a k S E) as Hn.
    assert (Hl : nth_error l k = Some (nth k l 0)) by (apply nth_error_nth_some; lia). rewrite Hl in Hn. cbn [option_map] in Hn.
    destruct (Nat.eqb_spec a k) as [->|N].
    + rewrite (nth_error_nth l' k 0 Hn). lia.
    + rewrite (nth_error_nth l' k 0 Hn). lia.
Qed.

(** The global matrix entry is the stored value, or zero. *)
Lemma gmat_cases {T} (zero : T) P maps0 maps1 bs0 bs1 mats : maps_ok P maps0 -> maps_ok P maps1 -> mats_ok P maps0 maps1 bs0 bs1 mats ->
  forall G g k0 k1, k0 < bs0 -> k1 < bs1 ->
  (exists q i c, q < P /\ i < size_local (maps0 q) /\ im_lo (maps0 q) + i = G /\ local_to_global (maps1 q) c = Some g /\ In c (R (rowsof (mats q)) i) /\
     gmat zero P maps0 maps1 bs0 bs1 mats G g k0 k1 = nth (pos (rowsof (mats q)) i c * (bs0 * bs1) + (k0 * bs1 + k1)) (mt_data (mats q)) zero) \/
  ((forall q i c, q < P -> i < size_local (maps0 q) -> im_lo (maps0 q) + i = G -> local_to_global (maps1 q) c = Some g -> ~ In c (R (rowsof (mats q)) i)) /\
     gmat zero P maps0 maps1 bs0 bs1 mats G g k0 k1 = zero).
Proof.
  intros Hok0 Hok1 Hm G g k0 k1 H0 H1. unfold gmat.
  destruct (find (fun q => (im_lo (maps0 q) <=? G) && (G <? im_hi (maps0 q))) (seq 0 P)) as [q|] eqn:E.
  - apply find_some in E as (Hq & E). apply in_seq in Hq. apply Bool.andb_true_iff in E. rewrite Nat.leb_le, Nat.ltb_lt in E. assert (Hq' : q < P) by lia.
    assert (Hi : G - im_lo (maps0 q) < size_local (maps0 q)) by (unfold size_local; lia). set (i := G - im_lo (maps0 q)) in *.
    assert (Ei : local_to_global (maps0 q) i = Some G) by (rewrite l2g_own by exact Hi; f_equal; lia).
    assert (Hu : forall q' i', q' < P -> i' < size_local (maps0 q') -> im_lo (maps0 q') + i' = G -> q' = q /\ i' = i).
    { intros q' i' Hq1 Hi1 EG. assert (q' = q) as ->; [|split; [reflexivity|lia]]. apply (owner_unique P maps0 Hok0 q' q G); auto; unfold owns; unfold size_local in *; lia. }
    destruct (index_in g (global_indices (maps1 q))) as [c|] eqn:Ec.
    + pose proof (proj1 (gidx P maps1 q g c Hok1 Hq') Ec) as Ec'. rewrite (entry_at zero P maps0 maps1 bs0 bs1 Hok0 Hok1 mats q G g i c k0 k1 Hq' Ei Ec').
      destruct (rows_ok P maps0 maps1 bs0 bs1 mats Hm q Hq') as (E1 & E2 & E3 & E4). destruct (bs_ok P maps0 maps1 bs0 bs1 mats Hm q Hq') as (B0 & B1).
      rewrite (dense_R zero (mats q) (rowsof (mats q)) bs0 bs1) by assumption. destruct (index_in c (R (rowsof (mats q)) i)) as [t|] eqn:Et.
      * left. exists q, i, c. do 2 (split; [assumption|]). split; [lia|]. split; [exact Ec'|]. split; [eapply nth_error_In, index_in_some; eauto|]. unfold pos, idx. now rewrite Et.
      * right. split; [|reflexivity]. intros q' i' c' Hq1 Hi1 EG Ecc Hin. destruct (Hu q' i' Hq1 Hi1 EG) as (-> & ->).
        pose proof (l2g_inj P maps1 q c' c g Hok1 Hq' Ecc Ec') as ->. destruct (index_in_in _ _ Hin) as (t & E'). congruence.
    + right. split. 2:{ unfold entry. rewrite Ec. destruct (index_in G (global_indices (maps0 q))); reflexivity. }
      intros q' i' c' Hq1 Hi1 EG Ecc Hin. destruct (Hu q' i' Hq1 Hi1 EG) as (-> & ->). eapply (gidx_none P maps1 q g); eauto.
  - right. split; [|reflexivity]. intros q i c Hq Hi EG _ _. assert (Hin : In q (seq 0 P)) by (apply in_seq; lia). pose proof (find_none _ _ E q Hin) as E1. cbv beta in E1.
    apply Bool.andb_false_iff in E1. rewrite Nat.leb_gt, Nat.ltb_ge in E1. unfold size_local in Hi. lia.
Qed.

Section Trans.
Context {T : Type} (zero : T).
Variables (P : nat) (nbx : (nat -> list nat) -> nat -> list nat).
Variables (maps0 maps1 : nat -> imap) (bs0 bs1 : nat) (mats : nat -> csr T) (offs : nat -> list nat).
Hypothesis HP : 0 < P.
Hypothesis Hnbx : nbx_oracle P nbx.
Hypothesis Hok0 : maps_ok P maps0.
Hypothesis Hok1 : maps_ok P maps1.
Hypothesis Hm : mats_ok P maps0 maps1 bs0 bs1 mats.
Hypothesis Hoff : offs_ok P maps0 maps1 offs mats.
Notation ls0 q := (size_local (maps0 q)).
Notation ls1 q := (size_local (maps1 q)).
Notation ng0 q := (num_ghosts (maps0 q)).
Notation ng1 q := (num_ghosts (maps1 q)).
Notation rws q := (rowsof (mats q)).
Notation nbs := (bs0 * bs1).
Notation src q := (im_src (maps1 q)).
Notation dest q := (im_dest (maps1 q)).
Notation ow q := (im_owners (maps1 q)).
Notation gh1 q := (im_ghosts (maps1 q)).
Definition D q i := nth i (offs q) 0.
Definition cl q k := nth k (mt_cols (mats q)) 0.
Definition blk q p := map (fun j => nth (p * nbs + j) (mt_data (mats q)) zero) (seq 0 nbs).

Lemma rows_ok' q : q < P -> mt_cols (mats q) = concat (rws q) /\ mt_rp (mats q) = psums (map (@length nat) (rws q)) /\
  Forall (StronglySorted lt) (rws q) /\ length (rws q) = ls0 q + ng0 q.
Proof. intro Hq. eapply rows_ok; eauto. Qed.
Lemma pos0 : 0 < bs0. Proof. now destruct (bs_pos P maps0 maps1 bs0 bs1 mats Hm 0 HP). Qed.
Lemma pos1 : 0 < bs1. Proof. now destruct (bs_pos P maps0 maps1 bs0 bs1 mats Hm 0 HP). Qed.

Lemma off_S' q i : i < length (rws q) -> off (rws q) (S i) = off (rws q) i + length (R (rws q) i).
Proof. intro H. unfold off. apply lsum_firstn_S. rewrite nth_error_map_some, (nth_error_nth_some (rws q) i []) by exact H. reflexivity. Qed.

Lemma row_nth q i t : q < P -> i < length (rws q) -> t < length (R (rws q) i) ->
  nth_error (mt_cols (mats q)) (off (rws q) i + t) = nth_error (R (rws q) i) t.
Proof.
  intros Hq Hi Ht. destruct (rows_ok' q Hq) as (E & _). rewrite E. unfold off. apply nth_error_concat; [|exact Ht].
  now apply nth_error_nth_some.
Qed.

Lemma row_cl q i k : q < P -> i < length (rws q) -> off (rws q) i <= k < off (rws q) (S i) ->
  nth_error (mt_cols (mats q)) k = Some (cl q k) /\ nth_error (R (rws q) i) (k - off (rws q) i) = Some (cl q k).
Proof.
  intros Hq Hi Hk. rewrite off_S' in Hk by exact Hi. pose proof (row_nth q i (k - off (rws q) i) Hq Hi ltac:(lia)) as E.
  replace (off (rws q) i + (k - off (rws q) i)) with k in E by lia.
  destruct (nth_error_lt (R (rws q) i) (k - off (rws q) i) ltac:(lia)) as (c & Ec). rewrite Ec in E. unfold cl. rewrite (nth_error_nth _ _ 0 E). auto.
Qed.

Lemma D_ok q i : q < P -> i < ls0 q -> nth_error (offs q) i = Some (D q i) /\ off (rws q) i <= D q i <= off (rws q) (S i) /\
  forall k, off (rws q) i <= k < off (rws q) (S i) -> (k < D q i <-> cl q k < ls1 q).
Proof.
  intros Hq Hi. destruct (rows_ok' q Hq) as (E1 & E2 & E3 & E4). destruct (Hoff q Hq) as (Hl & H). destruct (H i Hi) as (a & d & b & Ea & Ed & Eb & Hd & Hc).
  rewrite E2, rp_nth in Ea, Eb by lia. injection Ea as <-. injection Eb as <-. unfold D. rewrite (nth_error_nth _ _ 0 Ed). split; [exact Ed|]. split; [exact Hd|].
  intros k Hk. destruct (row_cl q i k Hq ltac:(lia) Hk) as (Ec & _). now apply Hc.
Qed.

Lemma blk_slice q i k : q < P -> i < length (rws q) -> off (rws q) i <= k < off (rws q) (S i) ->
  slice (mt_data (mats q)) (k * nbs) (k * nbs + nbs) = Some (blk q k).
Proof.
  intros Hq Hi Hk. destruct (row_cl q i k Hq Hi Hk) as (Ec & _). apply nth_error_bound in Ec. destruct (rows_ok' q Hq) as (E1 & _).
  pose proof (data_ok P maps0 maps1 bs0 bs1 mats Hm q Hq) as L. rewrite <- E1 in L.
  assert (Hb : k * nbs + nbs <= length (mt_data (mats q))).
  { rewrite L, <- Nat.mul_assoc. assert ((k + 1) * nbs <= length (mt_cols (mats q)) * nbs) by (apply Nat.mul_le_mono_r; lia). lia. }
  apply slice_some. split; [lia|]. split; [exact Hb|]. unfold blk. symmetry. replace (k * nbs + nbs - k * nbs) with nbs by lia.
  apply nth_error_ext. intro j. destruct (lt_dec j nbs) as [Lj|Lj].
  - rewrite nth_error_firstn, nth_error_skipn by exact Lj. rewrite nth_error_map_some, nth_error_seq by exact Lj. cbn. symmetry. symmetry. apply nth_error_nth_some. lia.
  - rewrite !(proj2 (nth_error_None _ _)); [reflexivity|rewrite map_length, seq_length; lia|rewrite firstn_length; lia].
Qed.
Lemma blk_len q k : length (blk q k) = nbs.
Proof. unfold blk. now rewrite map_length, seq_length. Qed.

(** The entries in local column [c]: (row, position). *)
Definition hit q c i := match index_in c (R (rws q) i) with Some t => [(i, off (rws q) i + t)] | None => [] end.
Definition col_list q c := concat (map (hit q c) (seq 0 (ls0 q))).

Lemma hit_in q c i i' k : q < P -> In (i', k) (hit q c i) <-> i' = i /\ In c (R (rws q) i) /\ k = pos (rws q) i c.
Proof.
  intro Hq. unfold hit. destruct (index_in c (R (rws q) i)) as [t|] eqn:E.
  - cbn. pose proof (index_in_some _ _ _ E) as Et. unfold pos, idx. rewrite E. split.
    + intros [H|[]]. injection H as <- <-. split; [reflexivity|]. split; [eapply nth_error_In; eauto|reflexivity].
    + intros (-> & _ & ->). now left.
  - cbn. split; [intros []|]. intros (_ & H & _). destruct (index_in_in _ _ H) as (t & Et). congruence.
Qed.
Lemma col_list_in q c i k : q < P -> In (i, k) (col_list q c) <-> i < ls0 q /\ In c (R (rws q) i) /\ k = pos (rws q) i c.
Proof.
  intro Hq. unfold col_list. rewrite in_concat. split.
  - intros (l & Hl & H). apply in_map_iff in Hl as (i' & <- & Hi). apply in_seq in Hi. apply hit_in in H as (-> & H1 & H2); auto. split; [lia|auto].
  - intros (Hi & H1 & H2). exists (hit q c i). split; [apply in_map, in_seq; lia|]. apply hit_in; auto.
Qed.
Lemma SS_tagged (h : nat -> list (nat * nat)) : forall n s, (forall i x, In x (h i) -> fst x = i) -> (forall i, length (h i) <= 1) ->
  StronglySorted lt (map fst (concat (map h (seq s n)))).
Proof.
  induction n as [|n IH]; intros s Ht Hl; [constructor|]. cbn [seq map concat]. rewrite map_app.
  assert (Hgt : forall y, In y (map fst (concat (map h (seq (S s) n)))) -> s < y).
  { intros y Hy. apply in_map_iff in Hy as (x & <- & Hx). apply in_concat in Hx as (l & Hl' & Hx). apply in_map_iff in Hl' as (j & <- & Hj). apply in_seq in Hj.
    rewrite (Ht _ _ Hx). lia. }
  destruct (h s) as [|x [|y l]] eqn:E.
  - apply IH; assumption.
  - cbn [map app]. constructor; [apply IH; assumption|]. apply Forall_forall. intros y Hy. rewrite (Ht s x) by (rewrite E; now left). now apply Hgt.
  - specialize (Hl s). rewrite E in Hl. cbn in Hl. lia.
Qed.
Lemma col_list_sorted q c : q < P -> StronglySorted lt (map fst (col_list q c)).
Proof.
  intro Hq. apply SS_tagged.
  - intros i [i' k] H. now apply hit_in in H.
  - intro i. unfold hit. destruct (index_in c (R (rws q) i)); cbn; lia.
Qed.

Lemma pos_range q i c : q < P -> i < length (rws q) -> In c (R (rws q) i) -> off (rws q) i <= pos (rws q) i c < off (rws q) (S i) /\ cl q (pos (rws q) i c) = c.
Proof.
  intros Hq Hi Hc. destruct (rows_ok' q Hq) as (E1 & E2 & E3 & E4). destruct (idx_ok (rws q) E3 i c Hc) as (_ & _ & En). pose proof (nth_error_bound _ _ _ En) as L.
  assert (Hr : off (rws q) i <= pos (rws q) i c < off (rws q) (S i)) by (rewrite off_S' by exact Hi; unfold pos; lia). split; [exact Hr|].
  destruct (row_cl q i _ Hq Hi Hr) as (_ & E). unfold pos in E at 1. replace (off (rws q) i + idx (rws q) i c - off (rws q) i) with (idx (rws q) i c) in E by lia. congruence.
Qed.

Lemma filter_cols q i a b c : q < P -> i < length (rws q) -> off (rws q) i <= a -> b <= off (rws q) (S i) ->
  (In c (R (rws q) i) -> a <= pos (rws q) i c < b) ->
  filter (fun ik : nat * nat => cl q (snd ik) =? c) (map (pair i) (seq a (b - a))) = hit q c i.
Proof.
  intros Hq Hi Ha Hb Hin. destruct (rows_ok' q Hq) as (E1 & E2 & E3 & E4). rewrite filter_map_comm. cbn [snd]. unfold hit.
  assert (Huniq : forall k, In k (seq a (b - a)) -> cl q k = c -> In c (R (rws q) i) /\ k = pos (rws q) i c).
  { intros k Hk Ek. apply in_seq in Hk. destruct (row_cl q i k Hq Hi ltac:(lia)) as (_ & En). rewrite Ek in En. assert (Hc : In c (R (rws q) i)) by (eapply nth_error_In; eauto).
    split; [exact Hc|]. destruct (idx_ok (rws q) E3 i c Hc) as (_ & _ & En'). assert (Hnd : NoDup (R (rws q) i)) by (apply SS_lt_NoDup, R_sorted; exact E3).
    pose proof (NoDup_nth_error_inj _ _ _ _ Hnd En En'). unfold pos. lia. }
  destruct (index_in c (R (rws q) i)) as [t|] eqn:E.
  - assert (Hc : In c (R (rws q) i)) by (eapply nth_error_In, index_in_some; eauto). specialize (Hin Hc).
    assert (Ep : off (rws q) i + t = pos (rws q) i c) by (unfold pos, idx; now rewrite E). rewrite Ep.
    rewrite (filter_single _ _ (pos (rws q) i c)); [reflexivity|apply seq_NoDup|apply in_seq; lia| |].
    + apply Nat.eqb_eq. now apply pos_range.
    + intros k Hk Ek. apply Nat.eqb_eq in Ek. now apply Huniq.
  - rewrite filter_none; [reflexivity|]. intros k Hk. apply Nat.eqb_neq. intro Ek. destruct (Huniq k Hk Ek) as (Hc & _). destruct (index_in_in _ _ Hc) as (t & Et). congruence.
Qed.

Definition E_diag q := concat (map (fun i => map (pair i) (seq (off (rws q) i) (D q i - off (rws q) i))) (seq 0 (ls0 q))).
Definition E_off q := concat (map (fun i => map (pair i) (seq (D q i) (off (rws q) (S i) - D q i))) (seq 0 (ls0 q))).
Lemma diag_filter q c : q < P -> c < ls1 q -> filter (fun ik : nat * nat => cl q (snd ik) =? c) (E_diag q) = col_list q c.
Proof.
  intros Hq Hc. destruct (rows_ok' q Hq) as (_ & _ & _ & E4). unfold E_diag, col_list. rewrite filter_concat_map. f_equal. apply map_ext_in. intros i Hi. apply in_seq in Hi.
  destruct (D_ok q i Hq ltac:(lia)) as (_ & Hd & Hs). apply filter_cols; try lia; auto. intro Hin. destruct (pos_range q i c Hq ltac:(lia) Hin) as (Hp & Ep).
  split; [lia|]. apply Hs; [exact Hp|]. now rewrite Ep.
Qed.
Lemma off_filter q c : q < P -> ls1 q <= c -> filter (fun ik : nat * nat => cl q (snd ik) =? c) (E_off q) = col_list q c.
Proof.
  intros Hq Hc. destruct (rows_ok' q Hq) as (_ & _ & _ & E4). unfold E_off, col_list. rewrite filter_concat_map. f_equal. apply map_ext_in. intros i Hi. apply in_seq in Hi.
  destruct (D_ok q i Hq ltac:(lia)) as (_ & Hd & Hs). apply filter_cols; try lia; auto. intro Hin. destruct (pos_range q i c Hq ltac:(lia) Hin) as (Hp & Ep).
  split; [|lia]. destruct (lt_dec (pos (rws q) i c) (D q i)) as [L|L]; [|lia]. apply Hs in L; [|exact Hp]. lia.
Qed.
Lemma E_diag_in q i k : q < P -> In (i, k) (E_diag q) <-> i < ls0 q /\ off (rws q) i <= k < off (rws q) (S i) /\ cl q k < ls1 q.
Proof.
  intro Hq. unfold E_diag. rewrite in_concat. split.
  - intros (l & Hl & H). apply in_map_iff in Hl as (i' & <- & Hi). apply in_seq in Hi. apply in_map_iff in H as (k' & E & Hk). injection E as -> ->. apply in_seq in Hk.
    destruct (D_ok q i Hq ltac:(lia)) as (_ & Hd & Hs). split; [lia|]. split; [lia|]. apply Hs; lia.
  - intros (Hi & Hk & Hc). destruct (D_ok q i Hq Hi) as (_ & Hd & Hs). apply Hs in Hc; [|exact Hk]. eexists. split; [apply in_map_iff; exists i; split; [reflexivity|apply in_seq; lia]|].
    apply in_map, in_seq. lia.
Qed.
Lemma E_off_in q i k : q < P -> In (i, k) (E_off q) <-> i < ls0 q /\ off (rws q) i <= k < off (rws q) (S i) /\ ls1 q <= cl q k.
Proof.
  intro Hq. unfold E_off. rewrite in_concat. split.
  - intros (l & Hl & H). apply in_map_iff in Hl as (i' & <- & Hi). apply in_seq in Hi. apply in_map_iff in H as (k' & E & Hk). injection E as -> ->. apply in_seq in Hk.
    destruct (D_ok q i Hq ltac:(lia)) as (_ & Hd & Hs). split; [lia|]. split; [lia|]. destruct (le_lt_dec (ls1 q) (cl q k)) as [L|L]; [exact L|]. apply Hs in L; lia.
  - intros (Hi & Hk & Hc). destruct (D_ok q i Hq Hi) as (_ & Hd & Hs). assert (~ k < D q i) by (intro L; apply Hs in L; lia). eexists. split; [apply in_map_iff; exists i; split; [reflexivity|apply in_seq; lia]|].
    apply in_map, in_seq. lia.
Qed.

Lemma loop_diag q : q < P -> loop_entries (ls0 q) (mt_rp (mats q)) (offs q) = Some (E_diag q).
Proof.
  intro Hq. destruct (rows_ok' q Hq) as (E1 & E2 & E3 & E4). unfold loop_entries. rewrite omap_map with (g := fun i => map (pair i) (seq (off (rws q) i) (D q i - off (rws q) i))).
  - reflexivity.
  - intros i Hi. apply in_seq in Hi. rewrite E2, rp_nth by lia. cbn [obind]. destruct (D_ok q i Hq ltac:(lia)) as (-> & _). reflexivity.
Qed.
Lemma loop_off q : q < P -> loop_entries (ls0 q) (offs q) (tl (mt_rp (mats q))) = Some (E_off q).
Proof.
  intro Hq. destruct (rows_ok' q Hq) as (E1 & E2 & E3 & E4). unfold loop_entries. rewrite omap_map with (g := fun i => map (pair i) (seq (D q i) (off (rws q) (S i) - D q i))).
  - reflexivity.
  - intros i Hi. apply in_seq in Hi. destruct (D_ok q i Hq ltac:(lia)) as (-> & _). cbn [obind].
    replace (nth_error (tl (mt_rp (mats q))) i) with (nth_error (mt_rp (mats q)) (S i)) by (destruct (mt_rp (mats q)); [now destruct i|reflexivity]).
    rewrite E2, rp_nth by lia. reflexivity.
Qed.

(** ** The local part *)
Definition Lrow q j := map (fun ik : nat * nat => (fst ik, trb zero bs0 bs1 (blk q (snd ik)))) (col_list q j).
Definition Lall q := concat (map (Lrow q) (seq 0 (ls1 q))).
Definition KV q := map (fun ik : nat * nat => (cl q (snd ik), (fst ik, trb zero bs0 bs1 (blk q (snd ik))))) (E_diag q).

Lemma vals_KV q j : q < P -> j < ls1 q -> vals j (KV q) = Lrow q j.
Proof.
  intros Hq Hj. unfold vals, KV, Lrow. rewrite filter_map_comm, map_map. cbn [fst snd]. now rewrite (diag_filter q j Hq Hj).
Qed.

Lemma Lall_vals q : q < P -> concat (map (fun k => vals k (KV q)) (seq 0 (ls1 q))) = Lall q.
Proof. intro Hq. unfold Lall. f_equal. apply map_ext_in. intros j Hj. apply in_seq in Hj. apply vals_KV; [exact Hq|lia]. Qed.

Lemma local_ok q : q < P -> local_transpose bs0 bs1 zero (ls0 q) (ls1 q) (mats q) (offs q)
  = Some (map fst (Lall q), (psums (map (fun j => length (Lrow q j)) (seq 0 (ls1 q))), concat (map snd (Lall q)))).
Proof.
  intro Hq. unfold local_transpose. rewrite loop_diag by exact Hq. cbn [obind]. destruct (rows_ok' q Hq) as (E1 & E2 & E3 & E4).
  assert (Hcl : forall ik, In ik (E_diag q) -> nth_error (mt_cols (mats q)) (snd ik) = Some (cl q (snd ik))).
  { intros [i k] H. apply E_diag_in in H as (Hi & Hk & _); [|exact Hq]. cbn. apply (row_cl q i k Hq); [lia|exact Hk]. }
  rewrite (omap_map _ _ _ Hcl). cbn [obind].
  assert (Hlt : Forall (fun kv : nat * (nat * list T) => fst kv < ls1 q) (KV q)).
  { apply Forall_forall. intros kv H. apply in_map_iff in H as ([i k] & <- & H). cbn. now apply E_diag_in in H. }
  replace (map (fun ik => cl q (snd ik)) (E_diag q)) with (map fst (KV q)) by (unfold KV; rewrite map_map; reflexivity).
  rewrite count_keys_spec. 2:{ apply Forall_forall. intros k Hk. apply in_map_iff in Hk as (kv & <- & Hk). rewrite Forall_forall in Hlt. now apply Hlt. }
  cbn [obind]. rewrite map_vals_counts.
  replace (map (fun k => length (vals k (KV q))) (seq 0 (ls1 q))) with (map (fun j => length (Lrow q j)) (seq 0 (ls1 q))).
  2:{ apply map_ext_in. intros j Hj. apply in_seq in Hj. rewrite vals_KV by lia. reflexivity. }
  set (sz := map (fun j => length (Lrow q j)) (seq 0 (ls1 q))).
  assert (Esz : sz = map (fun k => length (vals k (KV q))) (seq 0 (ls1 q))).
  { apply map_ext_in. intros j Hj. apply in_seq in Hj. rewrite vals_KV by lia. reflexivity. }
  assert (Hn : last (psums sz) 0 = length (KV q)).
  { rewrite last_psums, Esz, <- (map_map (fun k => vals k (KV q)) (@length _)), lsum_concat_length. now apply vals_map_seq_total. }
  destruct (place_all (ls1 q) (KV q) (psums sz) (repeat (0, repeat zero nbs) (last (psums sz) 0)) Hlt) as (pos' & Epl & _).
  { intros k Hk. rewrite Esz. apply psums_offk. lia. }
  { now rewrite repeat_length. }
  rewrite (Lall_vals q Hq) in Epl. unfold KV in Epl.
  destruct (put_entries zero bs0 bs1 pos0 pos1 (mt_data (mats q))
     (fun st ik => col <- nth_error (mt_cols (mats q)) (snd ik);; put_entry bs0 bs1 (mt_data (mats q)) st col (fst ik) (snd ik))
     (fun ik => cl q (snd ik)) fst (fun ik => blk q (snd ik)) snd (E_diag q)) with (2 := fun e He => match e as e0 return In e0 (E_diag q) -> slice (mt_data (mats q)) (snd e0 * nbs) (snd e0 * nbs + nbs) = Some (blk q (snd e0)) with
       (i, k) => fun H => match proj1 (E_diag_in q i k Hq) H with conj Hi (conj Hk _) => blk_slice q i k Hq (Nat.lt_le_trans _ _ _ Hi (eq_ind_r (fun z => ls0 q <= z) (Nat.le_add_r _ _) E4)) Hk end end He) (4 := Epl) as (Eput & _).
  - intros ik st H. rewrite (Hcl ik H). reflexivity.
  - intros cb H. apply repeat_spec in H. subst cb. cbn. apply repeat_length.
  - cbn [fst snd] in Eput. unfold two at 1 in Eput. rewrite map_repeat, map_repeat in Eput. cbn [fst snd] in Eput.
    replace (concat (repeat (repeat zero nbs) (last (psums sz) 0))) with (repeat zero (last (psums sz) 0 * bs0 * bs1)) in Eput.
    + rewrite Eput. reflexivity.
    + rewrite <- Nat.mul_assoc. generalize (last (psums sz) 0) as n. induction n as [|n IH]; [reflexivity|]. cbn [repeat concat Nat.mul]. rewrite repeat_app, <- IH. reflexivity.
Qed.

(** ** The exchange *)
Definition own q (ik : nat * nat) := nth (cl q (snd ik) - ls1 q) (ow q) 0.
Definition gg q (ik : nat * nat) := nth (cl q (snd ik) - ls1 q) (gh1 q) 0.
Definition X q (ik : nat * nat) := (im_lo (maps0 q) + fst ik, (gg q ik, blk q (snd ik))).
Definition B s d := map (X s) (filter (fun ik => own s ik =? d) (E_off s)).

Lemma E_off_ghost q ik : q < P -> In ik (E_off q) ->
  nth_error (mt_cols (mats q)) (snd ik) = Some (cl q (snd ik)) /\ ls1 q <= cl q (snd ik) /\
  nth_error (gh1 q) (cl q (snd ik) - ls1 q) = Some (gg q ik) /\ nth_error (ow q) (cl q (snd ik) - ls1 q) = Some (own q ik) /\
  slice (mt_data (mats q)) (snd ik * nbs) (snd ik * nbs + nbs) = Some (blk q (snd ik)) /\
  In (own q ik) (src q) /\ own q ik < P /\ own q ik <> q /\ owns (maps1 (own q ik)) (gg q ik).
Proof.
  intros Hq H. destruct ik as [i k]. apply E_off_in in H as (Hi & Hk & Hc); [|exact Hq]. cbn [snd].
  destruct (rows_ok' q Hq) as (E1 & E2 & E3 & E4). destruct (row_cl q i k Hq ltac:(lia) Hk) as (Ec & _).
  pose proof (mk_cols _ _ _ _ _ _ Hm q _ Hq (nth_error_In _ _ Ec)) as Hb. unfold num_ghosts in Hb.
  assert (Eg : nth_error (gh1 q) (cl q k - ls1 q) = Some (gg q (i, k))) by (apply nth_error_nth_some; cbn [snd]; lia).
  assert (Eo : nth_error (ow q) (cl q k - ls1 q) = Some (own q (i, k))) by (apply nth_error_nth_some; cbn [snd]; rewrite (mo_len _ _ Hok1 q Hq); lia).
  destruct (mo_owner _ _ Hok1 q _ _ _ Hq Eg Eo) as (A1 & A2 & A3).
  do 4 (split; [assumption|]). split; [apply (blk_slice q i k Hq); [lia|exact Hk]|]. split; [|auto].
  apply (mo_src _ _ Hok1 q Hq). eapply nth_error_In; eauto.
Qed.

Definition nrank q o := match index_in o (src q) with Some k => k | None => 0 end.
Lemma nrank_ok q o : In o (src q) -> nth_error (src q) (nrank q o) = Some o.
Proof. intro H. unfold nrank. destruct (index_in_in _ _ H) as (k & E). rewrite E. now apply index_in_some. Qed.

Lemma send_ok q : q < P -> trans_send maps0 maps1 mats offs q = Some (concat (map (B q) (src q)),
  (map (fun d => length (B q d)) (src q), psums (map (fun d => length (B q d)) (src q)))).
Proof.
  intro Hq. unfold trans_send. destruct (bs_ok P maps0 maps1 bs0 bs1 mats Hm q Hq) as (-> & ->). destruct (mo_src _ _ Hok1 q Hq) as (Hss & Hsi).
  rewrite omap_map with (g := nrank q).
  2:{ intros o Ho. rewrite find_sorted_spec by exact Hss. unfold nrank. apply Hsi in Ho. destruct (index_in_in _ _ Ho) as (k & ->). reflexivity. }
  cbn [obind]. rewrite loop_off by exact Hq. cbn [obind].
  rewrite omap_map with (g := fun ik => (nrank q (own q ik), X q ik)).
  2:{ intros ik Hik. destruct (E_off_ghost q ik Hq Hik) as (-> & Hc & Eg & Eo & Eb & _). cbn [obind]. destruct (Nat.ltb_spec (cl q (snd ik)) (ls1 q)) as [L|L]; [lia|].
      rewrite nth_error_map_some, Eo. cbn [option_map obind]. rewrite Eg. cbn [obind]. rewrite Eb. reflexivity. }
  cbn [obind]. set (items := map (fun ik => (nrank q (own q ik), X q ik)) (E_off q)).
  assert (HF : Forall (fun kv : nat * (nat * (nat * list T)) => fst kv < length (src q)) items).
  { apply Forall_forall. intros kv H. apply in_map_iff in H as (ik & <- & Hik). cbn. destruct (E_off_ghost q ik Hq Hik) as (_ & _ & _ & _ & _ & Hin & _).
    eapply nth_error_bound, nrank_ok; eauto. }
  rewrite count_keys_spec. 2:{ apply Forall_forall. intros k Hk. apply in_map_iff in Hk as (kv & <- & Hk). rewrite Forall_forall in HF. now apply HF. }
  cbn [obind]. rewrite map_vals_counts.
  assert (Ev : forall k d, nth_error (src q) k = Some d -> vals k items = B q d).
  { intros k d Hk. unfold items, B. rewrite vals_map_filter. f_equal. apply filter_ext_in. intros ik Hik. destruct (E_off_ghost q ik Hq Hik) as (_ & _ & _ & _ & _ & Hin & _).
    pose proof (nrank_ok q _ Hin) as En. destruct (Nat.eqb_spec (nrank q (own q ik)) k) as [E|N].
    - rewrite E in En. symmetry. apply Nat.eqb_eq. congruence.
    - symmetry. apply Nat.eqb_neq. intro E. apply N. rewrite E in En. rewrite E. eapply NoDup_nth_error_inj; [apply SS_lt_NoDup, Hss| |]; eauto. }
  assert (Es : map (fun k => length (vals k items)) (seq 0 (length (src q))) = map (fun d => length (B q d)) (src q)).
  { apply map_seq_nth. intros k d Hk. now rewrite (Ev k d Hk). }
  assert (Ed : map (fun k => vals k items) (seq 0 (length (src q))) = map (B q) (src q)).
  { apply map_seq_nth. intros k d Hk. now rewrite (Ev k d Hk). }
  destruct (place_all (length (src q)) items (psums (map (fun k => length (vals k items)) (seq 0 (length (src q)))))
     (repeat (0, (0, [])) (last (psums (map (fun k => length (vals k items)) (seq 0 (length (src q))))) 0)) HF) as (pos & E & _).
  - intros k Hk. apply psums_offk. lia.
  - rewrite repeat_length, last_psums, <- (map_map (fun k => vals k items) (@length _)), lsum_concat_length. now apply vals_map_seq_total.
  - rewrite E. cbn [obind]. now rewrite Es, Ed.
Qed.

Definition arr r := concat (map (fun s => B s r) (dest r)).
Lemma dest_lt r s : r < P -> In s (dest r) -> s < P.
Proof. intros Hr H. now apply (dest_iff P maps1 Hok1) in H. Qed.
Lemma recv_ok r : r < P -> trans_recv P maps0 maps1 mats offs r = Some (arr r, map (fun s => length (B s r)) (dest r)).
Proof.
  intro Hr. unfold trans_recv. apply exchange_spec; [apply src_dest_graph; exact Hok1|exact Hr|]. intros s Hs. apply send_ok. eapply dest_lt; eauto.
Qed.

Lemma B_in s r it : s < P -> In it (B s r) <-> exists ik, In ik (E_off s) /\ own s ik = r /\ it = X s ik.
Proof.
  intro Hs. unfold B. rewrite in_map_iff. split.
  - intros (ik & <- & H). apply filter_In in H as (H & E). apply Nat.eqb_eq in E. eauto.
  - intros (ik & H & E & ->). exists ik. split; [reflexivity|]. apply filter_In. split; [exact H|now apply Nat.eqb_eq].
Qed.
Lemma B_facts s r it : s < P -> In it (B s r) -> owns (maps0 s) (fst it) /\ owns (maps1 r) (fst (snd it)) /\ s <> r /\ length (snd (snd it)) = nbs.
Proof.
  intros Hs H. apply B_in in H as ([i k] & Hik & E & ->); [|exact Hs]. destruct (E_off_ghost s (i, k) Hs Hik) as (_ & _ & _ & _ & _ & _ & A2 & A3 & A4). rewrite E in A3, A4.
  cbn [X fst snd]. split; [|split; [exact A4|split; [auto|apply blk_len]]].
  apply E_off_in in Hik as (Hi & _); [|exact Hs]. unfold owns. unfold size_local in Hi. lia.
Qed.

Definition GP r := sort_uniq_pairs (concat (map (fun s => map (fun it : nat * (nat * list T) => (fst it, s)) (B s r)) (dest r))).
Lemma ghosts_ok r : r < P -> trans_ghosts P maps0 maps1 mats offs r = Some (GP r).
Proof.
  intro Hr. unfold trans_ghosts. rewrite recv_ok by exact Hr. cbn [obind].
  rewrite omap_map with (g := fun p => map (fun it : nat * (nat * list T) => (fst it, nth p (dest r) 0)) (B (nth p (dest r) 0) r)).
  - cbn [obind]. unfold GP. do 3 f_equal. apply map_seq_nth. intros k s Hk. now rewrite (nth_error_nth _ _ 0 Hk).
  - intros p Hp. apply in_seq in Hp. assert (Ep : nth_error (dest r) p = Some (nth p (dest r) 0)) by (apply nth_error_nth_some; lia).
    pose proof (dest_lt r _ Hr (nth_error_In _ _ Ep)) as Hs. set (s := nth p (dest r) 0) in *. unfold arr.
    rewrite <- (map_map (fun s => B s r) (@length _)), (slice_at_concat (map (fun s => B s r) (dest r)) p (B s r)) by (rewrite nth_error_map_some, Ep; reflexivity).
    cbn [obind]. rewrite Ep. cbn [obind]. replace (forallb _ (B s r)) with true; [reflexivity|]. symmetry. apply forallb_forall. intros it Hit.
    destruct (B_facts s r it Hs Hit) as (A & _ & N & _). apply Bool.orb_true_iff. rewrite Nat.ltb_lt, Nat.leb_le.
    destruct (lt_dec (fst it) (im_lo (maps0 r))) as [L|L]; [now left|]. destruct (le_dec (im_hi (maps0 r)) (fst it)) as [L'|L']; [now right|].
    exfalso. apply N. eapply (owner_unique P maps0 Hok0); eauto. unfold owns. lia.
Qed.
Lemma GP_in r G s : r < P -> In (G, s) (GP r) <-> In s (dest r) /\ exists it, In it (B s r) /\ fst it = G.
Proof.
  intro Hr. unfold GP. rewrite sort_uniq_pairs_in, in_concat. split.
  - intros (l & Hl & H). apply in_map_iff in Hl as (s' & <- & Hs). apply in_map_iff in H as (it & E & Hit). injection E as <- ->. eauto.
  - intros (Hs & it & Hit & <-). eexists. split; [apply in_map_iff; exists s; split; [reflexivity|exact Hs]|]. apply in_map_iff. exists it. auto.
Qed.
Lemma GP_owner r G s : r < P -> In (G, s) (GP r) -> s < P /\ s <> r /\ owns (maps0 s) G.
Proof.
  intros Hr H. apply GP_in in H as (Hs & it & Hit & <-); [|exact Hr]. pose proof (dest_lt r s Hr Hs) as Hs'. destruct (B_facts s r it Hs' Hit) as (A & _ & N & _). auto.
Qed.
Lemma GP_sorted r : r < P -> StronglySorted lt (map fst (GP r)).
Proof.
  intro Hr. assert (H : forall G s s', In (G, s) (GP r) -> In (G, s') (GP r) -> s = s').
  { intros G s s' H1 H2. apply GP_owner in H1 as (A1 & _ & A2); [|exact Hr]. apply GP_owner in H2 as (B1 & _ & B2); [|exact Hr]. eapply (owner_unique P maps0 Hok0); eauto. }
  pose proof (sort_uniq_pairs_sorted (concat (map (fun s => map (fun it : nat * (nat * list T) => (fst it, s)) (B s r)) (dest r)))) as Hs. fold (GP r) in Hs.
  induction Hs as [|[G s] l Hl IH Hf]; [constructor|]. cbn [map]. constructor.
  - apply IH. intros G' s1 s2 H1 H2. eapply H; right; eauto.
  - apply Forall_forall. intros G' HG. apply in_map_iff in HG as ([G1 s1] & <- & HG). rewrite Forall_forall in Hf. destruct (Hf _ HG) as [L|(E & L)]; cbn in *; [exact L|].
    subst G1. assert (s = s1) by (eapply H; [left; reflexivity|right; eauto]). lia.
Qed.

Definition cm := built P nbx (fun q => ls0 q) (fun q => match trans_ghosts P maps0 maps1 mats offs q with Some l => map fst l | None => [] end)
    (fun q => match trans_ghosts P maps0 maps1 mats offs q with Some l => map snd l | None => [] end).
Lemma cm_inputs : inputs_ok P (fun q => ls0 q) (fun q => match trans_ghosts P maps0 maps1 mats offs q with Some l => map fst l | None => [] end)
    (fun q => match trans_ghosts P maps0 maps1 mats offs q with Some l => map snd l | None => [] end).
Proof.
  intros r Hr. rewrite ghosts_ok by exact Hr. split; [now rewrite !map_length|]. split; [apply SS_lt_NoDup, GP_sorted; exact Hr|].
  intros k G s HG Hs. rewrite nth_error_map_some in HG, Hs. destruct (nth_error (GP r) k) as [[G' s']|] eqn:E; [|discriminate]. cbn in HG, Hs. injection HG as ->. injection Hs as ->.
  apply nth_error_In, GP_owner in E as (A & N & O); [|exact Hr]. split; [exact A|]. split; [exact N|]. unfold owns in O.
  rewrite seq_S, map_app, lsum_app. cbn [map]. rewrite lsum_cons, lsum_nil, <- (lo_is_sum P maps0 Hok0 s A). cbn. unfold size_local. lia.
Qed.
Lemma cm_facts : maps_ok P cm /\ forall r, r < P -> trans_col_map P nbx maps0 maps1 mats offs r = Some (cm r) /\ im_ghosts (cm r) = map fst (GP r) /\
  im_lo (cm r) = im_lo (maps0 r) /\ im_hi (cm r) = im_hi (maps0 r).
Proof.
  destruct (built_ok P nbx Hnbx _ _ _ cm_inputs HP) as (Hok & H). fold cm in Hok, H. split; [exact Hok|]. intros r Hr. destruct (H r Hr) as (A & G & _ & S & _).
  split; [exact A|]. split; [rewrite G, ghosts_ok by exact Hr; reflexivity|].
  assert (Elo : im_lo (cm r) = im_lo (maps0 r)).
  { rewrite (lo_is_sum P cm Hok r Hr), (lo_is_sum P maps0 Hok0 r Hr). f_equal. apply map_ext_in. intros q Hq. apply in_seq in Hq. apply H. lia. }
  split; [exact Elo|]. pose proof (mo_range _ _ Hok r Hr). pose proof (mo_range _ _ Hok0 r Hr). unfold size_local in S. lia.
Qed.

(** ** Rows of the result *)
Section Rows.
Variable C : nat -> imap.
Hypothesis HC : maps_ok P C.
Hypothesis HClo : forall r, r < P -> im_lo (C r) = im_lo (maps0 r) /\ im_hi (C r) = im_hi (maps0 r).
Hypothesis HCs : forall r, r < P -> StronglySorted lt (im_ghosts (C r)).
Hypothesis HCg : forall r s it, r < P -> In s (dest r) -> In it (B s r) -> In (fst it) (im_ghosts (C r)).
Definition nc r G := Z.to_nat (global_to_local (C r) G).
Definition Rrow r j := map (fun it : nat * (nat * list T) => (nc r (fst it), trb zero bs0 bs1 (snd (snd it)))) (filter (fun it : nat * (nat * list T) => fst (snd it) =? im_lo (maps1 r) + j) (arr r)).
Definition rowT r j := Lrow r j ++ Rrow r j.
Definition recv_of r j s := match index_in (im_lo (maps1 r) + j) (gh1 s) with
  | Some t => map (fun ik : nat * nat => (nc r (im_lo (maps0 s) + fst ik), trb zero bs0 bs1 (blk s (snd ik)))) (col_list s (ls1 s + t))
  | None => [] end.

Lemma C_size r : r < P -> size_local (C r) = ls0 r.
Proof. intro Hr. destruct (HClo r Hr) as (A1 & A2). unfold size_local. now rewrite A1, A2. Qed.

Lemma nc_l2g r c G : r < P -> local_to_global (C r) c = Some G -> nc r G = c /\ (0 <= global_to_local (C r) G)%Z.
Proof.
  intros Hr H. unfold nc. rewrite (g2l_l2g (C r) (mo_range _ _ HC r Hr) (mo_once _ _ HC r Hr)) with (i := c); [rewrite Nat2Z.id; split; [reflexivity|lia]| |exact H].
  intros g Hg. now apply (ghost_not_owned P C HC).
Qed.
Lemma nc_ghost r s it : r < P -> In s (dest r) -> In it (B s r) -> exists t, nth_error (im_ghosts (C r)) t = Some (fst it) /\ nc r (fst it) = ls0 r + t /\
  local_to_global (C r) (nc r (fst it)) = Some (fst it) /\ (0 <= global_to_local (C r) (fst it))%Z.
Proof.
  intros Hr Hs Hit. pose proof (HCg r s it Hr Hs Hit) as Hg. apply In_nth_error in Hg as (t & Ht). exists t. split; [exact Ht|].
  assert (E : local_to_global (C r) (ls0 r + t) = Some (fst it)).
  { unfold local_to_global. rewrite C_size by exact Hr. destruct (Nat.ltb_spec (ls0 r + t) (ls0 r)) as [L|L]; [lia|]. now replace (ls0 r + t - ls0 r) with t by lia. }
  destruct (nc_l2g r _ _ Hr E) as (En & Hz). rewrite En. auto.
Qed.

Lemma recv_filter r j s : r < P -> j < ls1 r -> In s (dest r) ->
  filter (fun it : nat * (nat * list T) => fst (snd it) =? im_lo (maps1 r) + j) (B s r) =
  match index_in (im_lo (maps1 r) + j) (gh1 s) with Some t => map (X s) (col_list s (ls1 s + t)) | None => [] end.
Proof.
  intros Hr Hj Hs. pose proof (dest_lt r s Hr Hs) as Hs'. unfold B. rewrite filter_map_comm. cbn [X fst snd].
  assert (Hw : owns (maps1 r) (im_lo (maps1 r) + j)) by (unfold owns; unfold size_local in Hj; lia).
  destruct (index_in (im_lo (maps1 r) + j) (gh1 s)) as [t|] eqn:E.
  - apply index_in_some in E. f_equal. rewrite <- (off_filter s (ls1 s + t) Hs') by lia. rewrite filter_filter. apply filter_ext_in. intros ik Hik.
    destruct (E_off_ghost s ik Hs' Hik) as (_ & Hc & Eg & Eo & _ & _ & A & _ & Ow). destruct (Nat.eqb_spec (cl s (snd ik)) (ls1 s + t)) as [Ec|Nc].
    + rewrite Ec in Eg. replace (ls1 s + t - ls1 s) with t in Eg by lia. rewrite E in Eg. injection Eg as Eg. rewrite <- Eg in Ow. rewrite <- Eg, Nat.eqb_refl, Bool.andb_true_r.
      apply Nat.eqb_eq. eapply (owner_unique P maps1 Hok1); eauto.
    + apply Bool.andb_false_iff. right. apply Nat.eqb_neq. intro Eq. apply Nc. rewrite Eq in Eg. pose proof (NoDup_nth_error_inj _ _ _ _ (mo_once _ _ Hok1 s Hs') E Eg). lia.
  - rewrite filter_filter, filter_none; [reflexivity|]. intros ik Hik. destruct (E_off_ghost s ik Hs' Hik) as (_ & _ & Eg & _).
    apply Bool.andb_false_iff. right. apply Nat.eqb_neq. intro Eq. rewrite Eq in Eg. destruct (index_in_in _ _ (nth_error_In _ _ Eg)) as (t & Et). congruence.
Qed.

Lemma Rrow_eq r j : r < P -> j < ls1 r -> Rrow r j = concat (map (recv_of r j) (dest r)).
Proof.
  intros Hr Hj. unfold Rrow, arr. rewrite filter_concat_map, concat_map, map_map. f_equal. apply map_ext_in. intros s Hs. rewrite (recv_filter r j s Hr Hj Hs).
  unfold recv_of. destruct (index_in (im_lo (maps1 r) + j) (gh1 s)); [|reflexivity]. rewrite map_map. reflexivity.
Qed.

(** A ghost column entry travels to the owner of the column. *)
Lemma sent r j s t i k : r < P -> j < ls1 r -> s < P -> nth_error (gh1 s) t = Some (im_lo (maps1 r) + j) -> In (i, k) (col_list s (ls1 s + t)) ->
  In s (dest r) /\ In (X s (i, k)) (B s r).
Proof.
  intros Hr Hj Hs Ht H. assert (Hw : owns (maps1 r) (im_lo (maps1 r) + j)) by (unfold owns; unfold size_local in Hj; lia).
  split. { apply (dest_iff P maps1 Hok1); [exact Hr|]. split; [exact Hs|]. exists (im_lo (maps1 r) + j). split; [eapply nth_error_In; eauto|exact Hw]. }
  rewrite <- (off_filter s (ls1 s + t) Hs) in H by lia. apply filter_In in H as (H & Ec). apply Nat.eqb_eq in Ec. cbn [snd] in Ec. apply B_in; [exact Hs|]. exists (i, k).
  split; [exact H|]. split; [|reflexivity]. destruct (E_off_ghost s (i, k) Hs H) as (_ & _ & Eg & _ & _ & _ & A & _ & Ow). cbn [snd] in Eg. rewrite Ec in Eg.
  replace (ls1 s + t - ls1 s) with t in Eg by lia. assert (gg s (i, k) = im_lo (maps1 r) + j) by congruence. eapply (owner_unique P maps1 Hok1); eauto. congruence.
Qed.

Lemma rowT_in r j c b : r < P -> j < ls1 r -> In (c, b) (rowT r j) <->
  exists s i cc, s < P /\ i < ls0 s /\ local_to_global (C r) c = Some (im_lo (maps0 s) + i) /\ local_to_global (maps1 s) cc = Some (im_lo (maps1 r) + j) /\
    In cc (R (rws s) i) /\ b = trb zero bs0 bs1 (blk s (pos (rws s) i cc)).
Proof.
  intros Hr Hj. unfold rowT. rewrite in_app_iff, Rrow_eq by assumption. split.
  - intros [H|H].
    + apply in_map_iff in H as ([i k] & E & H). injection E as <- <-. apply col_list_in in H as (Hi & Hc & ->); [|exact Hr]. exists r, i, j. do 2 (split; [assumption|]).
      split. { cbn [fst]. rewrite l2g_own by (now rewrite C_size). f_equal. f_equal. now apply HClo. }
      split; [now apply l2g_own|]. auto.
    + apply in_concat in H as (l & Hl & H). apply in_map_iff in Hl as (s & <- & Hs). pose proof (dest_lt r s Hr Hs) as Hs'. unfold recv_of in H.
      destruct (index_in (im_lo (maps1 r) + j) (gh1 s)) as [t|] eqn:Et; [|destruct H]. apply index_in_some in Et. apply in_map_iff in H as ([i k] & E & H). injection E as <- <-. cbn [fst snd].
      destruct (sent r j s t i k Hr Hj Hs' Et H) as (_ & Hb). apply col_list_in in H as (Hi & Hc & ->); [|exact Hs']. exists s, i, (ls1 s + t). do 2 (split; [assumption|]).
      split. { destruct (nc_ghost r s _ Hr Hs Hb) as (t' & _ & _ & E & _). exact E. }
      split. { unfold local_to_global. destruct (Nat.ltb_spec (ls1 s + t) (ls1 s)) as [L|L]; [lia|]. now replace (ls1 s + t - ls1 s) with t by lia. }
      auto.
  - intros (s & i & cc & Hs & Hi & Ec & Ecc & Hin & ->). unfold local_to_global in Ecc. destruct (Nat.ltb_spec cc (ls1 s)) as [L|L].
    + injection Ecc as Eg. assert (s = r) as ->. { eapply (owner_unique P maps1 Hok1 s r (im_lo (maps1 s) + cc)); auto; unfold owns; unfold size_local in *; lia. }
      assert (cc = j) as -> by lia. left. apply in_map_iff. exists (i, pos (rws r) i j). split; [|apply col_list_in; auto]. cbn [fst snd]. f_equal.
      apply (l2g_inj P C r i c (im_lo (maps0 r) + i) HC Hr); [|exact Ec]. rewrite l2g_own by (now rewrite C_size). f_equal. f_equal. now apply HClo.
    + right. assert (Hcl : In (i, pos (rws s) i cc) (col_list s (ls1 s + (cc - ls1 s)))) by (replace (ls1 s + (cc - ls1 s)) with cc by lia; apply col_list_in; auto).
      destruct (sent r j s (cc - ls1 s) i _ Hr Hj Hs Ecc Hcl) as (Hd & Hb). apply in_concat. exists (recv_of r j s). split; [now apply in_map|]. unfold recv_of.
      destruct (index_in (im_lo (maps1 r) + j) (gh1 s)) as [t|] eqn:Et.
      * apply index_in_some in Et. pose proof (NoDup_nth_error_inj _ _ _ _ (mo_once _ _ Hok1 s Hs) Et Ecc). subst t. apply in_map_iff. exists (i, pos (rws s) i cc). split; [|exact Hcl].
        cbn [fst snd]. f_equal. now apply nc_l2g.
      * destruct (index_in_in _ _ (nth_error_In _ _ Ecc)) as (t & E). congruence.
Qed.

Lemma rowT_sorted r j : r < P -> j < ls1 r -> StronglySorted lt (map fst (rowT r j)).
Proof.
  intros Hr Hj. unfold rowT. rewrite map_app. apply SS_app.
  - unfold Lrow. rewrite map_map. cbn [fst]. now apply col_list_sorted.
  - rewrite Rrow_eq by assumption. rewrite concat_map, map_map.
    assert (Hmono : forall s s' i i' k k' t t', In s (dest r) -> In s' (dest r) -> nth_error (gh1 s) t = Some (im_lo (maps1 r) + j) -> nth_error (gh1 s') t' = Some (im_lo (maps1 r) + j) ->
      In (i, k) (col_list s (ls1 s + t)) -> In (i', k') (col_list s' (ls1 s' + t')) -> im_lo (maps0 s) + i < im_lo (maps0 s') + i' ->
      nc r (im_lo (maps0 s) + i) < nc r (im_lo (maps0 s') + i')).
    { intros s s' i i' k k' t t' Hs Hs' Ht Ht' H H' L. pose proof (dest_lt r s Hr Hs) as Ps. pose proof (dest_lt r s' Hr Hs') as Ps'.
      destruct (sent r j s t i k Hr Hj Ps Ht H) as (_ & Hb). destruct (sent r j s' t' i' k' Hr Hj Ps' Ht' H') as (_ & Hb').
      destruct (nc_ghost r s _ Hr Hs Hb) as (u & Eu & En & _). destruct (nc_ghost r s' _ Hr Hs' Hb') as (u' & Eu' & En' & _). cbn [X fst] in *. rewrite En, En'.
      destruct (lt_dec u u') as [Lu|Lu]; [lia|]. exfalso. pose proof (HCs r Hr) as HS. assert (u = u' \/ u' < u) as [->|G] by lia; [rewrite Eu in Eu'; injection Eu'; lia|].
      pose proof (SS_nth _ _ HS _ _ _ _ G Eu' Eu). lia. }
    apply SS_concat_by.
    + apply (mo_dest _ _ Hok1 r Hr).
    + intros s Hs. unfold recv_of. destruct (index_in (im_lo (maps1 r) + j) (gh1 s)) as [t|] eqn:Et; [|constructor]. apply index_in_some in Et. rewrite map_map. cbn [fst].
      pose proof (col_list_sorted s (ls1 s + t) (dest_lt r s Hr Hs)) as HS.
      assert (Hall : forall ik, In ik (col_list s (ls1 s + t)) -> In ik (col_list s (ls1 s + t))) by auto. revert HS Hall. generalize (col_list s (ls1 s + t)) at 1 2 4 as l.
      induction l as [|[i k] l IH]; intros HS Hall; [constructor|]. cbn [map fst] in *. inversion_clear HS as [|? ? HS1 HS2]. constructor.
      * apply IH; [exact HS1|]. intros; apply Hall; now right.
      * apply Forall_forall. intros c Hc. apply in_map_iff in Hc as ([i' k'] & <- & Hc). cbn [fst]. rewrite Forall_forall in HS2.
        eapply (Hmono s s i i' k k' t t); eauto; [apply Hall; now left|apply Hall; now right|]. assert (i < i') by (apply HS2, in_map_iff; exists (i', k'); auto). lia.
    + intros s s' c c' Hs Hs' L Hc Hc'. unfold recv_of in Hc, Hc'.
      destruct (index_in (im_lo (maps1 r) + j) (gh1 s)) as [t|] eqn:Et; [|destruct Hc]. destruct (index_in (im_lo (maps1 r) + j) (gh1 s')) as [t'|] eqn:Et'; [|destruct Hc'].
      apply index_in_some in Et, Et'. rewrite map_map in Hc, Hc'. apply in_map_iff in Hc as ([i k] & <- & Hc). apply in_map_iff in Hc' as ([i' k'] & <- & Hc'). cbn [fst].
      eapply (Hmono s s' i i' k k' t t'); eauto. pose proof (dest_lt r s Hr Hs) as Ps. pose proof (dest_lt r s' Hr Hs') as Ps'.
      apply col_list_in in Hc as (Hi & _); [|exact Ps]. pose proof (lo_mono P maps0 Hok0 s s' L Ps'). unfold size_local in Hi. lia.
  - intros x y Hx Hy. unfold Lrow in Hx. rewrite map_map in Hx. apply in_map_iff in Hx as ([i k] & <- & Hx). cbn [fst]. apply col_list_in in Hx as (Hi & _); [|exact Hr].
    rewrite Rrow_eq in Hy by assumption. apply in_map_iff in Hy as ([c b] & <- & Hy). cbn [fst]. apply in_concat in Hy as (l & Hl & Hy). apply in_map_iff in Hl as (s & <- & Hs).
    unfold recv_of in Hy. destruct (index_in (im_lo (maps1 r) + j) (gh1 s)) as [t|] eqn:Et; [|destruct Hy]. apply index_in_some in Et. apply in_map_iff in Hy as ([i' k'] & E & Hy). injection E as <- <-.
    destruct (sent r j s t i' k' Hr Hj (dest_lt r s Hr Hs) Et Hy) as (_ & Hb). destruct (nc_ghost r s _ Hr Hs Hb) as (u & _ & En & _). cbn [X fst] in *. rewrite En. lia.
Qed.

Definition rowsT r := map (rowT r) (seq 0 (ls1 r)).
Definition AT r : csr T := of_rows bs1 bs0 (rowsT r).
Definition OT r := map (fun j => at_w (fun j => length (rowT r j)) j + length (Lrow r j)) (seq 0 (ls1 r)).

Lemma Lrow_blk r j cb : In cb (Lrow r j) -> length (snd cb) = nbs.
Proof. intro H. apply in_map_iff in H as (ik & <- & _). apply trb_len. Qed.
Lemma rowT_blk r j cb : In cb (rowT r j) -> length (snd cb) = nbs.
Proof. intro H. apply in_app_or in H as [H|H]; [eapply Lrow_blk; eauto|]. apply in_map_iff in H as (ik & <- & _). apply trb_len. Qed.

(** Normal path. *)
Definition KR r := map (fun it : nat * (nat * list T) => (fst (snd it) - im_lo (maps1 r), (nc r (fst it), trb zero bs0 bs1 (snd (snd it))))) (arr r).
Lemma arr_in r it : In it (arr r) -> exists s, In s (dest r) /\ In it (B s r).
Proof. intro H. apply in_concat in H as (l & Hl & H). apply in_map_iff in Hl as (s & <- & Hs). eauto. Qed.
Lemma arr_owns r it : r < P -> In it (arr r) -> owns (maps1 r) (fst (snd it)) /\ length (snd (snd it)) = nbs.
Proof. intros Hr H. apply arr_in in H as (s & Hs & H). pose proof (B_facts s r it (dest_lt r s Hr Hs) H) as (_ & A & _ & Lb). auto. Qed.
Lemma vals_KR r j : r < P -> vals j (KR r) = Rrow r j.
Proof.
  intro Hr. unfold KR, Rrow. rewrite vals_map_filter. f_equal. apply filter_ext_in. intros it Hit. destruct (arr_owns r it Hr Hit) as (Ho & _). unfold owns in Ho.
  destruct (Nat.eqb_spec (fst (snd it) - im_lo (maps1 r)) j), (Nat.eqb_spec (fst (snd it)) (im_lo (maps1 r) + j)); try reflexivity; lia.
Qed.
Definition KL r := concat (map (fun j => map (pair j) (Lrow r j)) (seq 0 (ls1 r))).
Lemma vals_KL r j : j < ls1 r -> vals j (KL r) = Lrow r j.
Proof.
  intro Hj. unfold KL. rewrite vals_concat, map_map. rewrite (map_ext _ (fun k => if k =? j then Lrow r k else [])) by (intro; apply vals_pairs).
  assert (G : forall n s, s <= j < s + n -> concat (map (fun k => if k =? j then Lrow r k else []) (seq s n)) = Lrow r j).
  { induction n as [|n IH]; intros s Hs; [lia|]. cbn [seq map concat]. destruct (Nat.eqb_spec s j) as [->|Ne].
    - rewrite MatrixProofs.concat_nil; [apply app_nil_r|]. intros k Hk. apply in_seq in Hk. destruct (Nat.eqb_spec k j); [lia|reflexivity].
    - apply IH. lia. }
  apply G. lia.
Qed.

Lemma normal_values r : r < P -> fast_path P maps1 r = false ->
  forall D0, D0 = repeat (0, repeat zero nbs) (at_w (fun j => length (rowT r j)) (ls1 r)) ->
  exists D1 cur', ofold (copy_step bs0 bs1 (Lrow r) (ls1 r) (fun j => length (rowT r j))) (seq 0 (ls1 r)) (two D0) = Some (two D1) /\
   ofold (fun st k =>
        l <- nth_error (map (fun it : nat * (nat * list T) => fst (snd it) - im_lo (maps1 r)) (arr r)) k ;;
        c <- nth_error (map (fun it : nat * (nat * list T) => global_to_local (C r) (fst it)) (arr r)) k ;;
        if (c <? 0)%Z then None else
        put_entry bs0 bs1 (concat (map (fun it : nat * (nat * list T) => snd (snd it)) (arr r))) st l (Z.to_nat c) k)
      (seq 0 (length (arr r))) (map (fun j => at_w (fun j => length (rowT r j)) j + length (Lrow r j)) (seq 0 (ls1 r)), two D1)
   = Some (cur', two (concat (rowsT r))).
Proof.
  intros Hr Hf D0 ED0. set (w := fun j => length (rowT r j)).
  assert (HD0 : forall cb, In cb D0 -> length (snd cb) = nbs) by (intros cb H; subst D0; apply repeat_spec in H; subst cb; apply repeat_length).
  destruct (copy_loop bs0 bs1 (Lrow r) (ls1 r) w (fun j cb => Lrow_blk r j cb)) with (D0 := D0) (n := ls1 r) as (cur & D1 & Epl & HD1 & Hl1 & Hlc & Hc & Ecp).
  { intros j _. unfold w, rowT. rewrite app_length. lia. }
  { exact HD0. } { subst D0. apply repeat_length. } { lia. }
  exists D1. fold (KL r) in Epl.
  assert (Hv : forall j, j < ls1 r -> vals j (KL r ++ KR r) = rowT r j) by (intros j Hj; rewrite vals_app, vals_KL, vals_KR by assumption; reflexivity).
  assert (HF : Forall (fun kv : nat * (nat * list T) => fst kv < ls1 r) (KL r ++ KR r)).
  { apply Forall_app. split; apply Forall_forall; intros kv H.
    - apply in_concat in H as (l & Hl & H). apply in_map_iff in Hl as (j & <- & Hj). apply in_seq in Hj. apply in_map_iff in H as (x & <- & _). cbn. lia.
    - apply in_map_iff in H as (it & <- & H). cbn. destruct (arr_owns r it Hr H) as (Ho & _). unfold owns in Ho. unfold size_local. lia. }
  assert (Esz : map (fun k => length (vals k (KL r ++ KR r))) (seq 0 (ls1 r)) = map w (seq 0 (ls1 r))).
  { apply map_ext_in. intros j Hj. apply in_seq in Hj. rewrite Hv by lia. reflexivity. }
  destruct (place_all (ls1 r) (KL r ++ KR r) (map (at_w w) (seq 0 (ls1 r))) D0 HF) as (pos' & E & _).
  { intros k Hk. rewrite <- psums_offk, Esz by lia. rewrite rp_at by lia. rewrite nth_error_map_some, nth_error_seq by exact Hk. reflexivity. }
  { subst D0. rewrite repeat_length. rewrite <- (vals_map_seq_total _ _ HF), <- lsum_concat_length, map_map, Esz. reflexivity. }
  rewrite ofold_app, Epl in E. cbn [obind] in E.
  replace (concat (map (fun k => vals k (KL r ++ KR r)) (seq 0 (ls1 r)))) with (concat (rowsT r)) in E.
  2:{ f_equal. apply map_ext_in. intros j Hj. apply in_seq in Hj. symmetry. apply Hv. lia. }
  exists pos'. split; [exact Ecp|].
  assert (Ecur : map (fun j => at_w w j + length (Lrow r j)) (seq 0 (ls1 r)) = cur).
  { apply nth_error_ext. intro i. destruct (lt_dec i (ls1 r)) as [Li|Li].
    - rewrite Hc by exact Li. rewrite nth_error_map_some, nth_error_seq by exact Li. cbn [option_map plus]. destruct (Nat.ltb_spec i (ls1 r)); [reflexivity|lia].
    - rewrite !(proj2 (nth_error_None _ _)); [reflexivity|lia|rewrite map_length, seq_length; lia]. }
  rewrite Ecur. set (dflt := (0, (0, @nil T))). set (itk := fun k => nth k (arr r) dflt).
  replace (KR r) with (map (fun k => (fst (snd (itk k)) - im_lo (maps1 r), (nc r (fst (itk k)), trb zero bs0 bs1 (snd (snd (itk k)))))) (seq 0 (length (arr r)))) in E.
  2:{ unfold KR. apply map_seq_nth. intros k x Hk. unfold itk. now rewrite (nth_error_nth _ _ _ Hk). }
  destruct (put_entries zero bs0 bs1 pos0 pos1 (concat (map (fun it : nat * (nat * list T) => snd (snd it)) (arr r)))
     (fun st k =>
        l <- nth_error (map (fun it : nat * (nat * list T) => fst (snd it) - im_lo (maps1 r)) (arr r)) k ;;
        c <- nth_error (map (fun it : nat * (nat * list T) => global_to_local (C r) (fst it)) (arr r)) k ;;
        if (c <? 0)%Z then None else
        put_entry bs0 bs1 (concat (map (fun it : nat * (nat * list T) => snd (snd it)) (arr r))) st l (Z.to_nat c) k)
     (fun k => fst (snd (itk k)) - im_lo (maps1 r)) (fun k => nc r (fst (itk k))) (fun k => snd (snd (itk k))) (fun k => k) (seq 0 (length (arr r)))) with (4 := E) as (Eput & _).
  - intros k st Hk. apply in_seq in Hk. assert (Ek : nth_error (arr r) k = Some (itk k)) by (apply nth_error_nth_some; lia).
    rewrite !nth_error_map_some, Ek. cbn [option_map obind]. destruct (arr_in r _ (nth_error_In _ _ Ek)) as (s & Hs & Hb).
    destruct (nc_ghost r s _ Hr Hs Hb) as (t & _ & _ & _ & Hz). destruct (Z.ltb_spec (global_to_local (C r) (fst (itk k))) 0); [lia|]. reflexivity.
  - intros k Hk. apply in_seq in Hk. assert (Ek : nth_error (arr r) k = Some (itk k)) by (apply nth_error_nth_some; lia).
    set (vs := map (fun it : nat * (nat * list T) => snd (snd it)) (arr r)).
    assert (Hu : forall b, In b vs -> length b = nbs) by (intros b Hb; apply in_map_iff in Hb as (it & <- & Hit); now apply (arr_owns r it Hr)).
    assert (Evk : nth_error vs k = Some (snd (snd (itk k)))) by (unfold vs; rewrite nth_error_map_some, Ek; reflexivity).
    apply nth_error_split in Evk as (v1 & v2 & Ev & Lv). rewrite Ev, concat_app. cbn [concat].
    pose proof (slice_mid (concat v1) (snd (snd (itk k))) (concat v2)) as Es. rewrite (len_uniform nbs v1) in Es by (intros b Hb; apply Hu; rewrite Ev; apply in_or_app; now left).
    rewrite (Hu (snd (snd (itk k)))) in Es by (rewrite Ev; apply in_or_app; right; now left). rewrite Lv in Es. exact Es.
  - exact HD1.
  - exact Eput.
Qed.

Lemma psums_last_w r : last (psums (map (fun j => length (rowT r j)) (seq 0 (ls1 r)))) 0 = at_w (fun j => length (rowT r j)) (ls1 r).
Proof. apply last_psums. Qed.
Lemma repeat_blocks n : concat (repeat (repeat zero nbs) n) = repeat zero (n * bs0 * bs1).
Proof. rewrite <- Nat.mul_assoc. induction n as [|n IH]; [reflexivity|]. cbn [repeat concat Nat.mul]. rewrite IH, repeat_app. reflexivity. Qed.
Lemma OT_combine r (w := fun j => length (rowT r j)) :
  map (fun p : nat * nat => fst p + snd p) (combine (psums (map w (seq 0 (ls1 r)))) (map (fun j => length (Lrow r j)) (seq 0 (ls1 r)))) = OT r /\
  map (fun p : nat * nat => fst p + snd p) (combine (map (fun j => length (Lrow r j)) (seq 0 (ls1 r))) (psums (map w (seq 0 (ls1 r))))) = OT r.
Proof.
  assert (E : forall j, nth_error (OT r) j = if j <? ls1 r then Some (at_w w j + length (Lrow r j)) else None).
  { intro j. unfold OT. rewrite nth_error_map_some. destruct (Nat.ltb_spec j (ls1 r)) as [L|L]; [now rewrite nth_error_seq by exact L|].
    rewrite (proj2 (nth_error_None _ _)); [reflexivity|rewrite seq_length; lia]. }
  assert (El : forall j, nth_error (map (fun j => length (Lrow r j)) (seq 0 (ls1 r))) j = if j <? ls1 r then Some (length (Lrow r j)) else None).
  { intro j. rewrite nth_error_map_some. destruct (Nat.ltb_spec j (ls1 r)) as [L|L]; [now rewrite nth_error_seq by exact L|].
    rewrite (proj2 (nth_error_None _ _)); [reflexivity|rewrite seq_length; lia]. }
  split; apply nth_error_ext; intro j; rewrite E, nth_error_map_some, combine_nth_error, El; destruct (Nat.ltb_spec j (ls1 r)) as [L|L]; try reflexivity.
  - rewrite (rp_at (ls1 r) w j) by lia. reflexivity.
  - destruct (nth_error _ j); reflexivity.
  - rewrite (rp_at (ls1 r) w j) by lia. cbn. f_equal. lia.
Qed.

(** The result is a distributed matrix and the transpose. *)
Definition rm := imap_plain P (fun q => ls1 q).
Lemma rm_ok : maps_ok P rm. Proof. now apply plain_ok. Qed.
Lemma rm_size r : size_local (rm r) = ls1 r.
Proof. unfold rm, imap_plain, size_local at 1. cbn [im_lo im_hi]. lia. Qed.
Lemma rm_range r : r < P -> im_lo (rm r) = im_lo (maps1 r) /\ im_hi (rm r) = im_hi (maps1 r).
Proof.
  intro Hr. assert (Elo : im_lo (rm r) = im_lo (maps1 r)).
  { rewrite (lo_is_sum P rm rm_ok r Hr), (lo_is_sum P maps1 Hok1 r Hr). f_equal. apply map_ext. intro q. apply rm_size. }
  split; [exact Elo|]. pose proof (mo_range _ _ Hok1 r Hr). cbn [rm imap_plain im_lo im_hi] in *. rewrite Elo. unfold size_local. lia.
Qed.

Lemma rowsT_nth r j : j < ls1 r -> nth j (rowsT r) [] = rowT r j.
Proof. intro Hj. apply nth_error_nth. unfold rowsT. rewrite nth_error_map_some, nth_error_seq by exact Hj. reflexivity. Qed.
Lemma rowsT_len r : length (rowsT r) = ls1 r.
Proof. unfold rowsT. now rewrite map_length, seq_length. Qed.
Lemma rowsT_blk r row cb : In row (rowsT r) -> In cb row -> length (snd cb) = bs1 * bs0.
Proof. intros H Hc. apply in_map_iff in H as (j & <- & _). rewrite Nat.mul_comm. eapply rowT_blk; eauto. Qed.
Lemma rowsT_sorted r row : r < P -> In row (rowsT r) -> StronglySorted lt (map fst row).
Proof. intros Hr H. apply in_map_iff in H as (j & <- & Hj). apply in_seq in Hj. apply rowT_sorted; [exact Hr|lia]. Qed.

Lemma AT_has r j c : r < P -> row_has (AT r) j c <-> j < ls1 r /\ exists b, In (c, b) (rowT r j).
Proof.
  intro Hr. unfold AT. rewrite of_rows_has by (first [apply pos0|apply pos1|intros; eapply rowsT_sorted; eauto|intros; eapply rowsT_blk; eauto]). rewrite rowsT_len. split.
  - intros (Hj & H). split; [exact Hj|]. rewrite rowsT_nth in H by exact Hj. apply in_map_iff in H as ([c' b] & <- & H). eauto.
  - intros (Hj & b & H). split; [exact Hj|]. rewrite rowsT_nth by exact Hj. apply in_map_iff. exists (c, b). auto.
Qed.

Lemma AT_mats : mats_ok P rm C bs1 bs0 AT.
Proof.
  split.
  - intros r Hr. split; [|auto]. apply of_rows_ok; [apply rowsT_blk|intros; eapply rowsT_sorted; eauto|apply pos1|apply pos0].
  - intros r Hr. cbn [AT of_rows mt_rp]. rewrite psums_length, map_length, rowsT_len, rm_size. cbn. lia.
  - intros r c Hr H. cbn [AT of_rows mt_cols] in H. apply in_map_iff in H as ([c' b] & <- & H). apply in_concat in H as (row & Hrow & H). apply in_map_iff in Hrow as (j & <- & Hj). apply in_seq in Hj.
    apply rowT_in in H as (s & i & cc & _ & _ & E & _); [|exact Hr|lia]. cbn [fst]. apply (l2g_some (C r) (mo_range _ _ HC r Hr)). eauto.
  - intros q k G r c g Hq H. destruct k; discriminate.
Qed.

Lemma OT_sharp : offs_ok P rm C OT AT.
Proof.
  intros r Hr. rewrite rm_size. split; [unfold OT; now rewrite map_length, seq_length|]. intros j Hj. set (w := fun j => length (rowT r j)).
  assert (Erp : mt_rp (AT r) = psums (map w (seq 0 (ls1 r)))) by (cbn [AT of_rows mt_rp]; unfold rowsT; now rewrite map_map).
  exists (at_w w j), (at_w w j + length (Lrow r j)), (at_w w (S j)). rewrite Erp, !rp_at by lia.
  split; [reflexivity|]. split; [unfold OT; rewrite nth_error_map_some, nth_error_seq by exact Hj; reflexivity|]. split; [reflexivity|].
  assert (Ew : w j = length (Lrow r j) + length (Rrow r j)) by (unfold w, rowT; now rewrite app_length).
  pose proof (at_w_S w j) as HS. split; [lia|]. intros p c Hp Hc.
  assert (Ec : nth_error (rowT r j) (p - at_w w j) = nth_error (concat (rowsT r)) p).
  { replace p with (at_w w j + (p - at_w w j)) at 2 by lia. symmetry. replace (at_w w j) with (lsum (firstn j (map (@length _) (rowsT r)))) at 1.
    - apply nth_error_concat; [unfold rowsT; rewrite nth_error_map_some, nth_error_seq by exact Hj; reflexivity|]. change (length (rowT r j)) with (w j). lia.
    - unfold rowsT. rewrite map_map, firstn_map_seq by lia. reflexivity. }
  cbn [AT of_rows mt_cols] in Hc. rewrite nth_error_map_some, <- Ec in Hc. destruct (nth_error (rowT r j) (p - at_w w j)) as [[c' b]|] eqn:Er; [|discriminate].
  injection Hc as ->. unfold rowT in Er. rewrite C_size by exact Hr. destruct (lt_dec (p - at_w w j) (length (Lrow r j))) as [L|L].
  - rewrite nth_error_app1 in Er by exact L. apply nth_error_In in Er. apply in_map_iff in Er as ([i k] & E & H). injection E as <- _. apply col_list_in in H as (Hi & _); [|exact Hr]. cbn [fst]. lia.
  - rewrite nth_error_app2 in Er by lia. apply nth_error_In in Er. apply in_map_iff in Er as (it & E & H). injection E as <- _. apply filter_In in H as (H & _).
    destruct (arr_in r it H) as (s & Hs & Hb). destruct (nc_ghost r s it Hr Hs Hb) as (t & _ & -> & _). lia.
Qed.

(** Where an entry of the matrix goes. *)
Lemma entry_row s i cc g : s < P -> i < ls0 s -> In cc (R (rws s) i) -> local_to_global (maps1 s) cc = Some g ->
  exists r j c, r < P /\ j < ls1 r /\ im_lo (maps1 r) + j = g /\ local_to_global (C r) c = Some (im_lo (maps0 s) + i).
Proof.
  intros Hs Hi Hin Eg. unfold local_to_global in Eg. destruct (Nat.ltb_spec cc (ls1 s)) as [L|L].
  - injection Eg as <-. exists s, cc, i. do 3 (split; [auto|]). rewrite l2g_own by (now rewrite C_size). f_equal. f_equal. now apply HClo.
  - destruct (ghost_owner P maps1 Hok1 s g Hs (nth_error_In _ _ Eg)) as (r & k & Hr & _ & Hw & _). unfold owns in Hw.
    assert (Hcl : In (i, pos (rws s) i cc) (col_list s (ls1 s + (cc - ls1 s)))) by (replace (ls1 s + (cc - ls1 s)) with cc by lia; apply col_list_in; auto).
    assert (Hj : g - im_lo (maps1 r) < ls1 r) by (unfold size_local; lia).
    assert (Eg' : nth_error (gh1 s) (cc - ls1 s) = Some (im_lo (maps1 r) + (g - im_lo (maps1 r)))) by (rewrite Eg; f_equal; lia).
    destruct (sent r (g - im_lo (maps1 r)) s (cc - ls1 s) i _ Hr Hj Hs Eg' Hcl) as (Hd & Hb).
    destruct (nc_ghost r s _ Hr Hd Hb) as (t & _ & _ & E & _). exists r, (g - im_lo (maps1 r)). eexists. do 2 (split; [eassumption|]). split; [lia|exact E].
Qed.

Lemma AT_stored G g : stored P rm C AT g G <-> stored P maps0 maps1 mats G g.
Proof.
  split.
  - intros (r & j & c & Hr & Hj & Eg & Ec & H). rewrite rm_size in Hj. destruct (rm_range r Hr) as (Elo & _). rewrite Elo in Eg.
    apply AT_has in H as (_ & b & H); [|exact Hr]. apply rowT_in in H as (s & i & cc & Hs & Hi & E & Ecc & Hin & _); [|exact Hr|exact Hj].
    exists s, i, cc. do 2 (split; [assumption|]). split; [congruence|]. split; [congruence|]. eapply row_has_R; eauto.
  - intros (s & i & cc & Hs & Hi & EG & Ecc & H). eapply row_has_R in H; eauto.
    destruct (entry_row s i cc g Hs Hi H Ecc) as (r & j & c & Hr & Hj & Eg & Ec). exists r, j, c. rewrite rm_size. destruct (rm_range r Hr) as (Elo & _). rewrite Elo.
    split; [exact Hr|]. split; [exact Hj|]. split; [exact Eg|]. split; [congruence|]. apply AT_has; [exact Hr|]. split; [exact Hj|]. eexists. apply rowT_in; [exact Hr|exact Hj|].
    exists s, i, cc. do 3 (split; [assumption|]). split; [congruence|]. split; [exact H|reflexivity].
Qed.

Lemma AT_gmat G g k0 k1 : k0 < bs0 -> k1 < bs1 -> gmat zero P rm C bs1 bs0 AT g G k1 k0 = gmat zero P maps0 maps1 bs0 bs1 mats G g k0 k1.
Proof.
  intros H0 H1. destruct (gmat_cases zero P maps0 maps1 bs0 bs1 mats Hok0 Hok1 Hm G g k0 k1 H0 H1) as [(s & i & cc & Hs & Hi & EG & Ecc & Hin & ->)|(Hno & ->)].
  - destruct (entry_row s i cc g Hs Hi Hin Ecc) as (r & j & c & Hr & Hj & Eg & Ec).
    assert (Hrow : In (c, trb zero bs0 bs1 (blk s (pos (rws s) i cc))) (rowT r j)).
    { apply rowT_in; [exact Hr|exact Hj|]. exists s, i, cc. do 3 (split; [assumption|]). split; [congruence|]. auto. }
    destruct (rm_range r Hr) as (Elo & Ehi).
    unfold gmat. rewrite (MultProofs.find_owner P rm rm_ok r g Hr) by (unfold owns; rewrite Elo, Ehi; unfold size_local in Hj; lia).
    rewrite (entry_at zero P rm C bs1 bs0 rm_ok HC AT r g G j c k1 k0 Hr).
    + unfold AT. rewrite (of_rows_dense zero bs1 bs0 (rowsT r)) with (b := trb zero bs0 bs1 (blk s (pos (rws s) i cc))); auto using pos0, pos1.
      * rewrite trb_nth by (auto using pos0, pos1). unfold blk. apply nth_error_nth. rewrite nth_error_map_some, nth_error_seq; [reflexivity|].
        assert (S k0 * bs1 <= bs0 * bs1) by (apply Nat.mul_le_mono_r; lia). lia.
      * apply rowsT_blk.
      * intros; eapply rowsT_sorted; eauto.
      * now rewrite rowsT_nth.
    + rewrite l2g_own by (now rewrite rm_size). f_equal. lia.
    + congruence.
  - destruct (gmat_cases zero P rm C bs1 bs0 AT rm_ok HC AT_mats g G k1 k0 H1 H0) as [(r & j & c & Hr & Hj & Eg & Ec & Hin & _)|(_ & ->)]; [|reflexivity].
    exfalso. assert (Hst : stored P rm C AT g G). { exists r, j, c. do 4 (split; [assumption|]). apply (row_has_R P rm C bs1 bs0 AT AT_mats); assumption. }
    apply AT_stored in Hst as (s & i & cc & Hs & Hi & EG & Ecc & H). apply (Hno s i cc Hs Hi EG Ecc). eapply row_has_R in H; eauto.
Qed.
End Rows.

Lemma cm_hyps : (forall r, r < P -> im_lo (cm r) = im_lo (maps0 r) /\ im_hi (cm r) = im_hi (maps0 r)) /\
  (forall r, r < P -> StronglySorted lt (im_ghosts (cm r))) /\
  (forall r s it, r < P -> In s (dest r) -> In it (B s r) -> In (fst it) (im_ghosts (cm r))).
Proof.
  destruct cm_facts as (_ & H). split; [intros r Hr; apply H; exact Hr|]. split.
  - intros r Hr. destruct (H r Hr) as (_ & -> & _). now apply GP_sorted.
  - intros r s it Hr Hs Hit. destruct (H r Hr) as (_ & -> & _). apply in_map_iff. exists (fst it, s). split; [reflexivity|]. apply GP_in; [exact Hr|]. eauto.
Qed.

Lemma transpose_normal r : r < P -> matched P (transpose_calls P maps1) = true -> fast_path P maps1 r = false ->
  transpose zero P nbx maps0 maps1 mats offs r = Some (imap_plain P (fun q => ls1 q) r, (cm r, (AT cm r, OT cm r))).
Proof.
  intros Hr Hmt Hf. unfold transpose. rewrite Hmt. cbn [negb]. destruct (bs_ok P maps0 maps1 bs0 bs1 mats Hm r Hr) as (-> & ->).
  rewrite local_ok by exact Hr. cbn [obind]. rewrite Hf, recv_ok by exact Hr. cbn [obind].
  rewrite omap_map with (g := fun it : nat * (nat * list T) => fst (snd it) - im_lo (maps1 r)).
  2:{ intros it Hit. destruct (arr_owns r it Hr Hit) as (Ho & _). unfold owns in Ho.
      destruct (Nat.leb_spec (im_lo (maps1 r)) (fst (snd it))), (Nat.ltb_spec (fst (snd it)) (im_hi (maps1 r))); cbn [andb]; try lia; reflexivity. }
  cbn [obind]. rewrite adj_diff_psums.
  destruct cm_hyps as (HClo & HCs & HCg). destruct cm_facts as (HC & Hcm). destruct (Hcm r Hr) as (Ecm & _).
  set (w := fun j => length (rowT cm r j)).
  rewrite incr_all.
  2:{ apply Forall_forall. intros k Hk. apply in_map_iff in Hk as (it & <- & Hit). destruct (arr_owns r it Hr Hit) as (Ho & _). unfold owns in Ho. rewrite map_length, seq_length. unfold size_local. lia. }
  cbn [obind]. rewrite map_length, seq_length.
  replace (map (fun k => nth k (map (fun j => length (Lrow r j)) (seq 0 (ls1 r))) 0 + countb (fun x => x =? k) (map (fun it : nat * (nat * list T) => fst (snd it) - im_lo (maps1 r)) (arr r))) (seq 0 (ls1 r)))
    with (map w (seq 0 (ls1 r))).
  2:{ apply map_ext_in. intros j Hj. apply in_seq in Hj. unfold w, rowT. rewrite app_length. f_equal.
      - symmetry. apply nth_error_nth. rewrite nth_error_map_some, nth_error_seq by lia. reflexivity.
      - rewrite <- (vals_KR cm r j Hr), vals_length. unfold KR. rewrite map_map. reflexivity. }
  rewrite ghosts_ok by exact Hr. cbn [obind]. rewrite Ecm. cbn [obind].
  destruct (normal_values cm HC HClo HCg r Hr Hf _ eq_refl) as (D1 & cur' & Ecp & Eput). fold w in Ecp, Eput.
  rewrite last_psums. change (lsum (map w (seq 0 (ls1 r)))) with (at_w w (ls1 r)).
  unfold two at 1 in Ecp. rewrite !map_repeat in Ecp. cbn [fst snd] in Ecp. rewrite repeat_blocks in Ecp. unfold copy_step, Lall in *. rewrite Ecp. cbn [obind two].
  destruct (OT_combine cm r) as (EO1 & EO2). fold w in EO1, EO2. rewrite EO1, EO2. unfold two at 1 in Eput. unfold OT at 1. fold w. rewrite Eput. cbn [obind two].
  unfold AT, of_rows. do 6 f_equal. unfold rowsT. now rewrite map_map.
Qed.

Lemma transpose_fast C r : r < P -> matched P (transpose_calls P maps1) = true -> fast_path P maps1 r = true -> dest r = [] ->
  transpose zero P nbx maps0 maps1 mats offs r = Some (imap_plain P (fun q => ls1 q) r, (imap_plain P (fun q => ls0 q) r, (AT C r, OT C r))).
Proof.
  intros Hr Hmt Hf Hd. unfold transpose. rewrite Hmt. cbn [negb]. destruct (bs_ok P maps0 maps1 bs0 bs1 mats Hm r Hr) as (-> & ->).
  rewrite local_ok by exact Hr. cbn [obind]. rewrite Hf. rewrite adj_diff_psums.
  assert (Ew : forall j, rowT C r j = Lrow r j). { intro j. unfold rowT, Rrow, arr. rewrite Hd. cbn. apply app_nil_r. }
  destruct (OT_combine C r) as (_ & <-). unfold AT, of_rows, rowsT. rewrite map_map. unfold Lall.
  replace (map (fun j => length (rowT C r j)) (seq 0 (ls1 r))) with (map (fun j => length (Lrow r j)) (seq 0 (ls1 r))) by (apply map_ext; intro; now rewrite Ew).
  replace (map (rowT C r) (seq 0 (ls1 r))) with (map (Lrow r) (seq 0 (ls1 r))) by (apply map_ext; intro; now rewrite Ew). reflexivity.
Qed.

(** ** Result *)
Lemma isolated_iff m : isolated m = true <-> im_src m = [] /\ im_dest m = [].
Proof. unfold isolated. destruct (im_src m), (im_dest m); split; intro H; try discriminate; try (destruct H; discriminate); auto. Qed.

Lemma isolated_one r : P = 1 -> r < P -> isolated (maps1 r) = true.
Proof.
  intros E Hr. apply isolated_iff. split.
  - destruct (src r) as [|s l] eqn:Es; [reflexivity|]. assert (Hin : In s (src r)) by (rewrite Es; now left). apply (mo_src _ _ Hok1 r Hr) in Hin.
    apply In_nth_error in Hin as (k & Hk). destruct (nth_error_lt (gh1 r) k) as (g & Hg); [rewrite <- (mo_len _ _ Hok1 r Hr); eapply nth_error_bound; eauto|].
    destruct (mo_owner _ _ Hok1 r k g s Hr Hg Hk). lia.
  - destruct (dest r) as [|s l] eqn:Es; [reflexivity|]. assert (Hin : In s (dest r)) by (rewrite Es; now left). apply (dest_iff P maps1 Hok1) in Hin as (Hs & g & Hg & Hw); [|exact Hr].
    exfalso. apply (ghost_not_owned P maps1 Hok1 s g Hs Hg). replace s with r by lia. exact Hw.
Qed.

Lemma colls_eqb_refl l : colls_eqb l l = true.
Proof. unfold colls_eqb. rewrite Nat.eqb_refl. cbn [andb]. induction l as [|c l IH]; [reflexivity|]. cbn [combine forallb fst snd]. rewrite IH. now destruct c. Qed.

Lemma matched_iff : matched P (transpose_calls P maps1) = true <-> uniform P maps1.
Proof.
  unfold matched. rewrite forallb_forall.
  assert (Hfp : forall r, r < P -> fast_path P maps1 r = isolated (maps1 r)).
  { intros r Hr. unfold fast_path. destruct (Nat.eqb_spec P 1) as [E|N]; [|reflexivity]. now rewrite isolated_one. }
  split.
  - intro H. destruct (isolated (maps1 0)) eqn:E0.
    + left. intros r Hr. apply isolated_iff. specialize (H r ltac:(apply in_seq; lia)). unfold transpose_calls in H. rewrite !Hfp, E0 in H by lia.
      destruct (isolated (maps1 r)); [reflexivity|]. unfold imap_make_calls in H. destruct (P =? 1); discriminate.
    + right. intros r Hr. specialize (H r ltac:(apply in_seq; lia)). unfold transpose_calls in H. rewrite !Hfp, E0 in H by lia.
      destruct (isolated (maps1 r)) eqn:E; [unfold imap_make_calls in H; destruct (P =? 1); discriminate|].
      destruct (src r) as [|] eqn:Es; [|now left]. destruct (dest r) eqn:Ed; [|now right]. assert (isolated (maps1 r) = true) by (now apply isolated_iff). congruence.
  - intros Hu r Hr. apply in_seq in Hr. replace (transpose_calls P maps1 r) with (transpose_calls P maps1 0); [apply colls_eqb_refl|].
    unfold transpose_calls. rewrite !Hfp by lia. replace (isolated (maps1 r)) with (isolated (maps1 0)); [reflexivity|]. destruct Hu as [Hu|Hu].
    + rewrite !(proj2 (isolated_iff _)); auto; apply Hu; lia.
    + assert (G : forall q, q < P -> isolated (maps1 q) = false).
      { intros q Hq. destruct (isolated (maps1 q)) eqn:E; [|reflexivity]. apply isolated_iff in E. destruct (Hu q Hq); tauto. }
      rewrite !G by lia. reflexivity.
Qed.

Lemma transpose_ok : uniform P maps1 -> exists rm' cm' mats' offs',
  (forall r, r < P -> transpose zero P nbx maps0 maps1 mats offs r = Some (rm' r, (cm' r, (mats' r, offs' r)))) /\
  is_transpose zero P maps0 maps1 bs0 bs1 mats rm' cm' mats' offs'.
Proof.
  intro Hu. pose proof (proj2 matched_iff Hu) as Hmt. destruct Hu as [Hu|Hu].
  - set (C := imap_plain P (fun q => ls0 q)). assert (HC : maps_ok P C) by (now apply plain_ok).
    assert (HClo : forall r, r < P -> im_lo (C r) = im_lo (maps0 r) /\ im_hi (C r) = im_hi (maps0 r)).
    { intros r Hr. assert (Elo : im_lo (C r) = im_lo (maps0 r)).
      { rewrite (lo_is_sum P C HC r Hr), (lo_is_sum P maps0 Hok0 r Hr). f_equal. apply map_ext. intro q. unfold C, imap_plain, size_local at 1. cbn [im_lo im_hi]. lia. }
      split; [exact Elo|]. pose proof (mo_range _ _ Hok0 r Hr). cbn [C imap_plain im_lo im_hi] in *. rewrite Elo. unfold size_local. lia. }
    assert (HCs : forall r, r < P -> StronglySorted lt (im_ghosts (C r))) by (intros; constructor).
    assert (HCg : forall r s it, r < P -> In s (dest r) -> In it (B s r) -> In (fst it) (im_ghosts (C r))) by (intros r s it Hr Hs; destruct (Hu r Hr) as (_ & E); rewrite E in Hs; destruct Hs).
    exists rm, C, (AT C), (OT C). split.
    + intros r Hr. apply transpose_fast; auto; [|now apply Hu]. unfold fast_path. rewrite (proj2 (isolated_iff _) (Hu r Hr)). apply Bool.orb_true_r.
    + split; [exact rm_ok|]. split; [exact HC|]. split; [exact rm_range|]. split; [exact HClo|]. split; [intros r Hr; reflexivity|].
      split; [now apply AT_mats|]. split; [now apply OT_sharp|]. split; [intros; now apply AT_stored|intros; now apply AT_gmat].
  - destruct cm_hyps as (HClo & HCs & HCg). destruct cm_facts as (HC & _). exists rm, cm, (AT cm), (OT cm). split.
    + intros r Hr. apply transpose_normal; auto. unfold fast_path. destruct (isolated (maps1 r)) eqn:E; [apply isolated_iff in E; destruct (Hu r Hr); tauto|].
      destruct (Nat.eqb_spec P 1) as [E1|N]; [|reflexivity]. rewrite isolated_one in E by assumption. discriminate.
    + split; [exact rm_ok|]. split; [exact HC|]. split; [exact rm_range|]. split; [exact HClo|]. split; [intros r Hr; reflexivity|].
      split; [now apply AT_mats|]. split; [now apply OT_sharp|]. split; [intros; now apply AT_stored|intros; now apply AT_gmat].
Qed.
End Trans.

Lemma transpose_twice {T} (zero : T) P nbx maps0 maps1 bs0 bs1 (mats : nat -> csr T) rm cm mats' offs' :
  0 < P -> nbx_oracle P nbx -> is_transpose zero P maps0 maps1 bs0 bs1 mats rm cm mats' offs' -> uniform P cm ->
  exists rm2 cm2 mats2 offs2,
    (forall r, r < P -> transpose zero P nbx rm cm mats' offs' r = Some (rm2 r, (cm2 r, (mats2 r, offs2 r)))) /\
    mats_ok P rm2 cm2 bs0 bs1 mats2 /\ offs_ok P rm2 cm2 offs2 mats2 /\ same_ranges P rm2 maps0 /\ same_ranges P cm2 maps1 /\
    (forall G g, stored P rm2 cm2 mats2 G g <-> stored P maps0 maps1 mats G g) /\
    (forall G g k0 k1, k0 < bs0 -> k1 < bs1 -> gmat zero P rm2 cm2 bs0 bs1 mats2 G g k0 k1 = gmat zero P maps0 maps1 bs0 bs1 mats G g k0 k1).
Proof.
  intros HP Hnbx (A1 & A2 & A3 & A4 & A5 & A6 & A7 & A8 & A9) Hu.
  destruct (transpose_ok zero P nbx rm cm bs1 bs0 mats' offs' HP Hnbx A1 A2 A6 A7 Hu) as (rm2 & cm2 & mats2 & offs2 & Ht & B1 & B2 & B3 & B4 & B5 & B6 & B7 & B8 & B9).
  exists rm2, cm2, mats2, offs2. split; [exact Ht|]. split; [exact B6|]. split; [exact B7|].
  split. { intros r Hr. destruct (B3 r Hr) as (-> & ->). now apply A4. } split. { intros r Hr. destruct (B4 r Hr) as (-> & ->). now apply A3. }
  split; [intros G g; rewrite B8; apply A8|]. intros G g k0 k1 H0 H1. rewrite B9 by assumption. now apply A9.
Qed.

(** Only the values of the world on the ranks matter. *)
Lemma is_transpose_ext {T} (zero : T) P maps0 maps1 bs0 bs1 (mats : nat -> csr T) rm cm m o rm' cm' m' o' : 0 < P ->
  (forall r, r < P -> rm r = rm' r) -> (forall r, r < P -> cm r = cm' r) -> (forall r, r < P -> m r = m' r) -> (forall r, r < P -> o r = o' r) ->
  is_transpose zero P maps0 maps1 bs0 bs1 mats rm cm m o -> is_transpose zero P maps0 maps1 bs0 bs1 mats rm' cm' m' o'.
Proof.
  intros HP E1 E2 E3 E4 (A1 & A2 & A3 & A4 & A5 & A6 & A7 & A8 & A9).
  split; [now apply (maps_ok_ext P rm)|]. split; [now apply (maps_ok_ext P cm)|].
  split; [intros r Hr; rewrite <- E1 by exact Hr; now apply A3|]. split; [intros r Hr; rewrite <- E2 by exact Hr; now apply A4|].
  split; [intros r Hr; rewrite <- E1 by exact Hr; now apply A5|].
  split.
  { split.
    - intros r Hr. rewrite <- E3 by exact Hr. now apply (mk_csr _ _ _ _ _ _ A6).
    - intros r Hr. rewrite <- E3, <- E1 by exact Hr. now apply (mk_rows _ _ _ _ _ _ A6).
    - intros r c Hr. rewrite <- E3, <- E2 by exact Hr. now apply (mk_cols _ _ _ _ _ _ A6).
    - intros q k G r c g Hq Hk Hr. rewrite <- (E1 q) in * by exact Hq. rewrite <- (E1 r), <- (E2 q), <- (E2 r), <- (E3 q), <- (E3 r) by assumption. now apply (mk_ghost _ _ _ _ _ _ A6 q k). }
  split. { intros r Hr. rewrite <- E1, <- E2, <- E3, <- E4 by exact Hr. now apply A7. }
  split.
  - intros G g. rewrite <- A8. split; intros (q & i & c & Hq & H); exists q, i, c; (split; [exact Hq|]); [rewrite E1, E2, E3 by exact Hq|rewrite <- E1, <- E2, <- E3 by exact Hq]; exact H.
  - intros G g k0 k1 H0 H1. rewrite <- A9 by assumption. unfold gmat.
    replace (find (fun q => (im_lo (rm' q) <=? g) && (g <? im_hi (rm' q))) (seq 0 P)) with (find (fun q => (im_lo (rm q) <=? g) && (g <? im_hi (rm q))) (seq 0 P)).
    + destruct (find _ _) as [q|] eqn:E; [|reflexivity]. apply find_some in E as (Hq & _). apply in_seq in Hq. unfold entry. rewrite E1, E2, E3 by lia. reflexivity.
    + assert (G' : forall l, (forall q, In q l -> q < P) -> find (fun q => (im_lo (rm q) <=? g) && (g <? im_hi (rm q))) l = find (fun q => (im_lo (rm' q) <=? g) && (g <? im_hi (rm' q))) l).
      { induction l as [|q l IH]; intro Hl; [reflexivity|]. cbn [find]. rewrite E1 by (apply Hl; now left). rewrite IH by (intros; apply Hl; now right). reflexivity. }
      apply G'. intros q Hq. apply in_seq in Hq. lia.
Qed.
