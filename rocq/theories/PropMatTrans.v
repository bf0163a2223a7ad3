(** Properties C28 and C29: the distributed transpose, and collective calls. *)
From Verif Require Import Base BaseProofs Algo Nbx World WorldProofs IndexMap IndexMapSpec IndexMapProofs ImSharedProofs Sparsity SparsitySpec
  MatrixCSR MatrixSpec MatrixPar MatrixParSpec MatrixParProofs Collectives MatTrans MatOpsSpec TransProofs PropIndexMap PropSubMap PropSparsity PropMatrixPar.
Open Scope nat_scope.

(** C28: the transpose of a distributed matrix is a distributed matrix with the rows and
    columns of the other side, that stores block (g, G) exactly when the matrix stores
    block (G, g), with the transposed values. *)
Theorem C28_transpose :
  forall T (zero : T) P nbx maps0 maps1 bs0 bs1 (mats : nat -> csr T) offs,
    0 < P -> nbx_oracle P nbx -> maps_ok P maps0 -> maps_ok P maps1 -> mats_ok P maps0 maps1 bs0 bs1 mats -> offs_ok P maps0 maps1 offs mats ->
    uniform P maps1 ->
  exists rm cm mats' offs',
    (forall r, r < P -> transpose zero P nbx maps0 maps1 mats offs r = Some (rm r, (cm r, (mats' r, offs' r)))) /\
    is_transpose zero P maps0 maps1 bs0 bs1 mats rm cm mats' offs'.
Proof. exact @transpose_ok. Qed.
Print Assumptions C28_transpose.

(** C28: transposing the transpose gives the same blocks and values back. *)
Theorem C28_involution :
  forall T (zero : T) P nbx maps0 maps1 bs0 bs1 (mats : nat -> csr T) rm cm mats' offs',
    0 < P -> nbx_oracle P nbx -> is_transpose zero P maps0 maps1 bs0 bs1 mats rm cm mats' offs' -> uniform P cm ->
  exists rm2 cm2 mats2 offs2,
    (forall r, r < P -> transpose zero P nbx rm cm mats' offs' r = Some (rm2 r, (cm2 r, (mats2 r, offs2 r)))) /\
    mats_ok P rm2 cm2 bs0 bs1 mats2 /\ offs_ok P rm2 cm2 offs2 mats2 /\ same_ranges P rm2 maps0 /\ same_ranges P cm2 maps1 /\
    (forall G g, stored P rm2 cm2 mats2 G g <-> stored P maps0 maps1 mats G g) /\
    (forall G g k0 k1, k0 < bs0 -> k1 < bs1 -> gmat zero P rm2 cm2 bs0 bs1 mats2 G g k0 k1 = gmat zero P maps0 maps1 bs0 bs1 mats G g k0 k1).
Proof. exact @transpose_twice. Qed.
Print Assumptions C28_involution.

(** C29, for transpose: the ranks make the same collective calls exactly when all of them
    or none of them has a neighbour in the column map. *)
Theorem C29_transpose_partial :
  forall P maps1, 0 < P -> maps_ok P maps1 -> (matched P (transpose_calls P maps1) = true <-> uniform P maps1).
Proof. exact matched_iff. Qed.
Print Assumptions C29_transpose_partial.

(** A matrix on two ranks, 2 x 1 blocks, rows 0 1 | 2, columns 0 1 | 2. *)
Definition ex2_rows := imap_plain 2 (fun r => nth r [2; 1] 0).
Definition ex2_cols r := nth r [mkIM 0 2 3 [2] [1] [1] [1]; mkIM 2 3 3 [0] [0] [0] [0]] (mkIM 0 0 0 [] [] [] []).
Definition ex2_mats r : csr Z := nth r [mkCSR 2 1 [0; 2; 1] [0; 2; 3] [1; 2; 3; 4; 5; 6]%Z; mkCSR 2 1 [0; 1] [0; 2] [7; 8; 9; 10]%Z] (mkCSR 2 1 [] [] []).
Definition ex2_offs r := nth r [[1; 3]; [1]] [].
Example ex2_ok : maps_ok 2 ex2_rows /\ maps_ok 2 ex2_cols /\ mats_ok 2 ex2_rows ex2_cols 2 1 ex2_mats /\ offs_ok 2 ex2_rows ex2_cols ex2_offs ex2_mats /\ uniform 2 ex2_cols.
Proof.
  assert (Hnb : nbx_oracle 2 (senders 2)) by (intros d r _; reflexivity).
  assert (Hc : maps_ok 2 ex2_cols).
  { destruct (maps_make_ok 2 (senders 2) (fun r => nth r [2; 1] 0) (fun r => nth r [[2]; [0]] []) (fun r => nth r [[1]; [0]] []) Hnb) as (m & Hm & H); [lia| |].
    - intros [|[|r]] Hr; [| |lia]; (split; [reflexivity|]); (split; [repeat first [apply NoDup_nil | apply NoDup_cons; [cbn; lia|]]|]);
        intros [|[|k]] g o Hg Ho; cbn in Hg, Ho; try discriminate; injection Hg as <-; injection Ho as <-; vm_compute; lia.
    - apply (PatternMats.maps_ok_ext 2 m); [lia| |exact Hm]. intros [|[|r]] Hr; [| |lia]; destruct (H _ Hr) as (E & _); vm_compute in E; injection E as <-; reflexivity. }
  split; [apply plain_ok; lia|]. split; [exact Hc|]. split.
  - split.
    + intros [|[|r]] Hr; [| |lia]; (split; [|auto]); do 2 (split; [cbn; lia|]); (split; [|reflexivity]);
        [exists [[0; 2]; [1]]|exists [[0; 1]]]; do 2 (split; [reflexivity|]); repeat first [apply Forall_nil|apply Forall_cons|apply SSorted_nil|apply SSorted_cons|lia].
    + intros [|[|r]] Hr; [| |lia]; reflexivity.
    + intros [|[|r]] c Hr; [| |lia]; cbn; unfold size_local, num_ghosts; cbn; lia.
    + intros q k G r c g _ H. destruct k; discriminate.
  - split.
    + intros [|[|r]] Hr; [| |lia]; (split; [cbn; lia|]); intros i Hi; cbn in Hi.
      * destruct i as [|[|i]]; [| |lia]; do 3 eexists; do 3 (split; [reflexivity|]); (split; [cbn; lia|]); intros [|[|[|j]]] c Hj E; cbn in E; try discriminate; try lia; injection E as <-; unfold size_local; cbn; lia.
      * destruct i as [|i]; [|lia]; do 3 eexists; do 3 (split; [reflexivity|]); (split; [cbn; lia|]); intros [|[|j]] c Hj E; cbn in E; try lia; try injection E as <-; unfold size_local; cbn; lia.
    + right. intros [|[|r]] Hr; [| |lia]; left; discriminate.
Qed.

Definition tr_parts {A} (d : A) (t : nat -> option A) (r : nat) : A := match t r with Some x => x | None => d end.
Definition ex2_t := tr_parts (ex2_rows 0, (ex2_rows 0, (ex2_mats 0, []))) (transpose 0%Z 2 (senders 2) ex2_rows ex2_cols ex2_mats ex2_offs).
Example ex_transpose :
  map (fun r => let '(_, (cm, (A, o))) := ex2_t r in (im_ghosts cm, (mt_cols A, mt_rp A, mt_data A), o)) (seq 0 2)
  = [([2], ([0; 2; 1], [0; 2; 3], [1; 2; 9; 10; 5; 6]%Z), [1; 3]); ([0], ([0; 1], [0; 2], [7; 8; 3; 4]%Z), [1])] /\
  map (fun r => option_map (fun t => snd t)
        (transpose 0%Z 2 (senders 2) (fun q => fst (ex2_t q)) (fun q => fst (snd (ex2_t q))) (fun q => fst (snd (snd (ex2_t q)))) (fun q => snd (snd (snd (ex2_t q)))) r)) (seq 0 2)
  = map (fun r => Some (ex2_cols r, (ex2_mats r, ex2_offs r))) (seq 0 2).
Proof. vm_compute. auto. Qed.

(** C29 and C28, refuted without uniform neighbours: in the world of [ex_par] the
    transpose exists, but rank 1 has no neighbours in its column map and takes the short
    path; the transpose of the transpose does not match its collective calls. *)
Definition ex_t := tr_parts (ex_maps 0, (ex_maps 0, (ex_mats 0, []))) (transpose 0%Z 3 (senders 3) ex_maps ex_newm ex_mats ex_offs).
Definition ex_rm r := fst (ex_t r).
Definition ex_cm r := fst (snd (ex_t r)).
Definition ex_tm r := fst (snd (snd (ex_t r))).
Definition ex_to r := snd (snd (snd (ex_t r))).
Theorem C29_transpose_refuted :
  is_transpose 0%Z 3 ex_maps ex_newm 1 2 ex_mats ex_rm ex_cm ex_tm ex_to /\
  matched 3 (transpose_calls 3 ex_cm) = false /\
  forall r, transpose 0%Z 3 (senders 3) ex_rm ex_cm ex_tm ex_to r = None.
Proof.
  split; [|split].
  - destruct ex_mats_ok as (A & B & C & _).
    destruct (C28_transpose Z 0%Z 3 (senders 3) ex_maps ex_newm 1 2 ex_mats ex_offs) as (rm & cm & m' & o' & E & H); try assumption; [lia|intros d r _; reflexivity|exact ex_maps_ok| |].
    + right. intros [|[|[|r]]] Hr; [| | |lia]; left; vm_compute; discriminate.
    + assert (Ht : forall r, r < 3 -> ex_t r = (rm r, (cm r, (m' r, o' r)))) by (intros r Hr; unfold ex_t, tr_parts; now rewrite E).
      assert (E1 : forall r, r < 3 -> rm r = ex_rm r) by (intros r Hr; unfold ex_rm; now rewrite Ht).
      assert (E2 : forall r, r < 3 -> cm r = ex_cm r) by (intros r Hr; unfold ex_cm; now rewrite Ht).
      assert (E3 : forall r, r < 3 -> m' r = ex_tm r) by (intros r Hr; unfold ex_tm; now rewrite Ht).
      assert (E4 : forall r, r < 3 -> o' r = ex_to r) by (intros r Hr; unfold ex_to; now rewrite Ht).
      eapply is_transpose_ext; eauto.
  - vm_compute. reflexivity.
  - intro r. unfold transpose. replace (matched 3 (transpose_calls 3 ex_cm)) with false by (vm_compute; reflexivity). reflexivity.
Qed.
Print Assumptions C29_transpose_refuted.
