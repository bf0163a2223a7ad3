(** Properties C27 and C29: the distributed matrix product, and its collective calls. *)
From Coq Require Import Ring.
From Verif Require Import Base BaseProofs Algo Nbx World WorldProofs IndexMap IndexMapSpec IndexMapProofs ImSharedProofs
  MatrixCSR MatrixSpec MatrixPar MatrixParSpec MatrixParProofs Collectives MatTrans MatOpsSpec MatMul MatMulSpec MatMulProofs TransProofs PropMatTrans.
Open Scope nat_scope.

(** C27: the product of two distributed matrices is a distributed matrix that stores
    exactly the nonzero entries of the product, sorted in every row with the owned columns
    first. *)
Theorem C27_matmul :
  forall T (zero one : T) (add mul sub : T -> T -> T) (opp : T -> T) (eqb : T -> T -> bool),
    ring_theory zero one add mul sub opp eq -> (forall x y, eqb x y = true <-> x = y) ->
  forall P nbx A0 A1 B0 B1 (matsA matsB : nat -> csr T) offsA,
    0 < P -> nbx_oracle P nbx -> maps_ok P A0 -> maps_ok P A1 -> maps_ok P B0 -> maps_ok P B1 ->
    mats_ok P A0 A1 1 1 matsA -> mats_ok P B0 B1 1 1 matsB -> offs_ok P A0 A1 offsA matsA -> same_ranges P B0 A1 ->
    uniform P A1 ->
  exists rm cm mats' offs',
    (forall r, r < P -> matmul zero add mul eqb P nbx A0 A1 B0 B1 matsA matsB offsA r = Some (Some (rm r, (cm r, (mats' r, offs' r))))) /\
    is_product zero add mul P A0 A1 B0 B1 matsA matsB rm cm mats' offs'.
Proof. exact @matmul_ok. Qed.
Print Assumptions C27_matmul.

(** C27: matrices with blocks are rejected with an exception. *)
Theorem C27_block_size :
  forall T (zero : T) (add mul : T -> T -> T) (eqb : T -> T -> bool) P nbx A0 A1 B0 B1 (matsA matsB : nat -> csr T) offsA r,
    mt_bs0 (matsA r) <> 1 \/ mt_bs1 (matsA r) <> 1 \/ mt_bs0 (matsB r) <> 1 \/ mt_bs1 (matsB r) <> 1 ->
    matmul zero add mul eqb P nbx A0 A1 B0 B1 matsA matsB offsA r = Some None.
Proof. exact @matmul_blocks. Qed.
Print Assumptions C27_block_size.

(** C29, for matmul: the ranks make the same collective calls exactly when all of them or
    none of them has a neighbour in the column map of the first matrix. *)
Theorem C29_matmul_partial :
  forall P A1, 0 < P -> maps_ok P A1 -> (matched P (matmul_calls P A1) = true <-> uniform P A1).
Proof. exact mm_matched_iff. Qed.
Print Assumptions C29_matmul_partial.

(** C29, for index maps and scatterers: the calls are the same on all ranks. *)
Theorem C29_constructors :
  forall P, matched P (fun _ => imap_plain_calls) = true /\ matched P (fun _ => imap_make_calls P) = true /\ matched P (fun _ => scatterer_calls P) = true.
Proof. exact ctor_matched. Qed.
Print Assumptions C29_constructors.

(** Two matrices on two ranks:
    A = [1 0 2; 0 3 0; 5 0 4], B = [2 0 7; 0 3 0; -1 0 1], with A B = [0 0 9; 0 9 0; 6 0 39]. *)
Definition ex3_A r : csr Z := nth r [mkCSR 1 1 [0; 2; 1] [0; 2; 3] [1; 2; 3]%Z; mkCSR 1 1 [0; 1] [0; 2] [4; 5]%Z] (mkCSR 1 1 [] [] []).
Definition ex3_B r : csr Z := nth r [mkCSR 1 1 [0; 2; 1] [0; 2; 3] [2; 7; 3]%Z; mkCSR 1 1 [0; 1] [0; 2] [1; -1]%Z] (mkCSR 1 1 [] [] []).
Lemma ex3_mats (d : nat -> list Z) : length (d 0) = 3 -> length (d 1) = 2 ->
  mats_ok 2 ex2_rows ex2_cols 1 1 (fun r => nth r [mkCSR 1 1 [0; 2; 1] [0; 2; 3] (d 0); mkCSR 1 1 [0; 1] [0; 2] (d 1)] (mkCSR 1 1 [] [] [])).
Proof.
  intros E0 E1. split.
  - intros [|[|r]] Hr; [| |lia]; (split; [|auto]); do 2 (split; [cbn; lia|]); (split; [|cbn [nth mt_data mt_cols mt_bs0 mt_bs1 length]; lia]);
      [exists [[0; 2]; [1]]|exists [[0; 1]]]; do 2 (split; [reflexivity|]); repeat first [apply Forall_nil|apply Forall_cons|apply SSorted_nil|apply SSorted_cons|lia].
  - intros [|[|r]] Hr; [| |lia]; reflexivity.
  - intros [|[|r]] c Hr; [| |lia]; cbn; unfold size_local, num_ghosts; cbn; lia.
  - intros q k G r c g _ H. destruct k; discriminate.
Qed.
Example ex3_ok : mats_ok 2 ex2_rows ex2_cols 1 1 ex3_A /\ mats_ok 2 ex2_rows ex2_cols 1 1 ex3_B /\ offs_ok 2 ex2_rows ex2_cols ex2_offs ex3_A /\ same_ranges 2 ex2_rows ex2_cols.
Proof.
  split; [exact (ex3_mats (fun r => nth r [[1; 2; 3]; [4; 5]]%Z []) eq_refl eq_refl)|]. split; [exact (ex3_mats (fun r => nth r [[2; 7; 3]; [1; -1]]%Z []) eq_refl eq_refl)|]. split.
  - intros [|[|r]] Hr; [| |lia]; (split; [cbn; lia|]); intros i Hi; cbn in Hi.
    + destruct i as [|[|i]]; [| |lia]; do 3 eexists; do 3 (split; [reflexivity|]); (split; [cbn; lia|]); intros [|[|[|j]]] c Hj E; cbn in E; try discriminate; try lia; injection E as <-; unfold size_local; cbn; lia.
    + destruct i as [|i]; [|lia]; do 3 eexists; do 3 (split; [reflexivity|]); (split; [cbn; lia|]); intros [|[|j]] c Hj E; cbn in E; try lia; try injection E as <-; unfold size_local; cbn; lia.
  - intros [|[|r]] Hr; [| |lia]; split; reflexivity.
Qed.
Example ex_matmul :
  map (fun r => option_map (option_map (fun t => let '(_, (cm, (A, o))) := t in (im_ghosts cm, (mt_cols A, mt_rp A, mt_data A), o)))
        (matmul 0%Z Z.add Z.mul Z.eqb 2 (senders 2) ex2_rows ex2_cols ex2_rows ex2_cols ex3_A ex3_B ex2_offs r)) (seq 0 2)
  = [Some (Some ([2], ([2; 1], [0; 1; 2], [9; 9]%Z), [0; 2])); Some (Some ([0], ([0; 1], [0; 2], [39; 6]%Z), [1]))].
Proof. vm_compute. reflexivity. Qed.

(** C29, refuted without uniform neighbours: three ranks with one row each, where ranks 0
    and 1 refer to each other's columns and rank 2 does not. *)
Definition ex4_rows := imap_plain 3 (fun _ => 1).
Definition ex4_cols r := nth r [mkIM 0 1 3 [1] [1] [1] [1]; mkIM 1 2 3 [0] [0] [0] [0]; mkIM 2 3 3 [] [] [] []] (mkIM 0 0 0 [] [] [] []).
Definition ex4_mats r : csr Z := nth r [mkCSR 1 1 [0; 1] [0; 2] [1; 1]%Z; mkCSR 1 1 [0; 1] [0; 2] [1; 1]%Z; mkCSR 1 1 [0] [0; 1] [1]%Z] (mkCSR 1 1 [] [] []).
Definition ex4_offs (_ : nat) := [1].
Theorem C29_matmul_refuted :
  maps_ok 3 ex4_rows /\ maps_ok 3 ex4_cols /\ mats_ok 3 ex4_rows ex4_cols 1 1 ex4_mats /\ offs_ok 3 ex4_rows ex4_cols ex4_offs ex4_mats /\
  same_ranges 3 ex4_rows ex4_cols /\
  matched 3 (matmul_calls 3 ex4_cols) = false /\
  forall r, r < 3 -> matmul 0%Z Z.add Z.mul Z.eqb 3 (senders 3) ex4_rows ex4_cols ex4_rows ex4_cols ex4_mats ex4_mats ex4_offs r = None.
Proof.
  assert (Hnb : nbx_oracle 3 (senders 3)) by (intros d r _; reflexivity).
  split; [apply plain_ok; lia|]. split.
  { destruct (maps_make_ok 3 (senders 3) (fun _ => 1) (fun r => nth r [[1]; [0]; []] []) (fun r => nth r [[1]; [0]; []] []) Hnb) as (m & Hm & H); [lia| |].
    - intros [|[|[|r]]] Hr; [| | |lia]; (split; [reflexivity|]); (split; [repeat first [apply NoDup_nil | apply NoDup_cons; [cbn; lia|]]|]);
        intros [|[|k]] g o Hg Ho; cbn in Hg, Ho; try discriminate; injection Hg as <-; injection Ho as <-; vm_compute; lia.
    - apply (PatternMats.maps_ok_ext 3 m); [lia| |exact Hm]. intros [|[|[|r]]] Hr; [| | |lia]; destruct (H _ Hr) as (E & _); vm_compute in E; injection E as <-; reflexivity. }
  split.
  { split.
    - intros [|[|[|r]]] Hr; [| | |lia]; (split; [|auto]); do 2 (split; [cbn; lia|]); (split; [|reflexivity]);
        [exists [[0; 1]]|exists [[0; 1]]|exists [[0]]]; do 2 (split; [reflexivity|]); repeat first [apply Forall_nil|apply Forall_cons|apply SSorted_nil|apply SSorted_cons|lia].
    - intros [|[|[|r]]] Hr; [| | |lia]; reflexivity.
    - intros [|[|[|r]]] c Hr; [| | |lia]; cbn; unfold size_local, num_ghosts; cbn; lia.
    - intros q k G r c g _ H. destruct k; discriminate. }
  split.
  { intros [|[|[|r]]] Hr; [| | |lia]; (split; [reflexivity|]); intros i Hi; unfold size_local in Hi; cbn in Hi; (destruct i as [|i]; [|lia]);
      do 3 eexists; do 3 (split; [reflexivity|]); (split; [cbn; lia|]); intros [|[|j]] c Hj E; cbn in E; try discriminate; try lia; injection E as <-; unfold size_local; cbn; lia. }
  split; [intros [|[|[|r]]] Hr; [| | |lia]; split; reflexivity|]. split; [vm_compute; reflexivity|].
  intros [|[|[|r]]] Hr; [| | |lia]; vm_compute; reflexivity.
Qed.
Print Assumptions C29_matmul_refuted.
