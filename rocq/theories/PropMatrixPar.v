(** Properties C24 to C26 and C57: operations on a distributed matrix. *)
From Coq Require Import Ring.
From Verif Require Import Base BaseProofs Algo Nbx World WorldProofs IndexMap IndexMapSpec Scatterer VectorOps VectorSpec Sparsity SparsitySpec
  MatrixCSR MatrixSpec MatrixPar MatrixParSpec MatrixParProofs SpmvProofs MultProofs PatternMats PropIndexMap PropSubMap PropSparsity.
Open Scope nat_scope.

(** The hypotheses on matrices used below hold for matrices made from any finalised
    sparsity pattern, whatever values they hold. *)
Theorem C24_pattern_matrices :
  forall T (zero : T) P nbx maps0 maps1 patterns newp newm bs0 bs1 (mats : nat -> csr T) offs,
    0 < P -> nbx_oracle P nbx -> maps_ok P maps0 -> maps_ok P maps1 -> patterns_ok P maps0 maps1 patterns ->
    (forall r, r < P -> sp_finalize P nbx maps0 maps1 patterns r = Some (newp r, newm r)) ->
    0 < bs0 -> 0 < bs1 -> (forall r, r < P -> of_pattern zero bs0 bs1 (mats r) (offs r) (newp r)) ->
    maps_ok P newm /\ mats_ok P maps0 newm bs0 bs1 mats /\ offs_ok P maps0 newm offs mats.
Proof. exact @pattern_mats. Qed.
Print Assumptions C24_pattern_matrices.

(** C24: after the reverse scatter an entry in an owned row is the sum of what all ranks
    stored for it, ghost rows are zero, the pattern is unchanged and so is the sum over
    ranks of every entry. *)
Theorem C24_scatter_rev :
  forall T (zero one : T) add mul sub opp, ring_theory zero one add mul sub opp eq ->
  forall P maps0 maps1 bs0 bs1 (mats : nat -> csr T),
    maps_ok P maps0 -> maps_ok P maps1 -> narrow_columns P maps1 -> mats_ok P maps0 maps1 bs0 bs1 mats ->
  exists mats',
    (forall r, r < P -> scatter_rev zero add P maps0 maps1 mats r = Some (mats' r) /\
       mt_bs0 (mats' r) = bs0 /\ mt_bs1 (mats' r) = bs1 /\ mt_cols (mats' r) = mt_cols (mats r) /\
       mt_rp (mats' r) = mt_rp (mats r) /\ length (mt_data (mats' r)) = length (mt_data (mats r))) /\
    (forall r G g k0 k1, r < P -> owns (maps0 r) G -> k0 < bs0 -> k1 < bs1 ->
       entry zero maps0 maps1 bs0 bs1 mats' r G g k0 k1
       = total T zero add P (fun q => entry zero maps0 maps1 bs0 bs1 mats q G g k0 k1)) /\
    (forall r I J, r < P -> size_local (maps0 r) * bs0 <= I -> dense zero (mats' r) I J = zero) /\
    (forall G g k0 k1, k0 < bs0 -> k1 < bs1 ->
       total T zero add P (fun q => entry zero maps0 maps1 bs0 bs1 mats' q G g k0 k1)
       = total T zero add P (fun q => entry zero maps0 maps1 bs0 bs1 mats q G g k0 k1)).
Proof. exact @scatter_rev_statement. Qed.
Print Assumptions C24_scatter_rev.

(** C24, refuted without [narrow_columns]: the column of a received entry is narrowed to
    32 bits before it is compared with the owned range.  Here the rank owns columns 0 to 9
    and has one ghost column, global 2^32 + 3; an entry for that column is taken for owned
    column 3 instead of the ghost, local column 10. *)
Theorem C24_wide_columns_refuted :
  unpack_col 0 10 [4294967299]%Z 4294967299 = Some 3%Z /\
  unpack_col 0 10 [1099]%Z 1099 = Some 10%Z.
Proof. vm_compute. auto. Qed.
Print Assumptions C24_wide_columns_refuted.

(** C25: mult adds A x to the owned entries of y, for the global matrix and vector; it
    leaves the other entries of y alone and updates the ghosts of x. *)
Theorem C25_mult :
  forall T (zero one : T) add mul sub opp, ring_theory zero one add mul sub opp eq ->
  forall P maps0 maps1 bs0 bs1 (mats : nat -> csr T) offs,
    maps_ok P maps0 -> maps_ok P maps1 -> mats_ok P maps0 maps1 bs0 bs1 mats -> offs_ok P maps0 maps1 offs mats ->
  forall xs ys, full_size P maps1 bs1 xs -> (forall r, r < P -> bs0 * size_local (maps0 r) <= length (ys r)) ->
  forall r, r < P -> exists x' y', mult zero add P maps0 maps1 mats mul offs xs ys r = Some (x', y') /\
    vec_scatter_fwd P maps1 bs1 T xs r = Some x' /\ length y' = length (ys r) /\
    (forall i k0, i < size_local (maps0 r) -> k0 < bs0 ->
       nth (i * bs0 + k0) y' zero
       = add (nth (i * bs0 + k0) (ys r) zero) (product zero add mul P maps0 maps1 bs0 bs1 mats xs (im_lo (maps0 r) + i) k0)) /\
    (forall p, bs0 * size_local (maps0 r) <= p -> nth_error y' p = nth_error (ys r) p).
Proof. exact @mult_statement. Qed.
Print Assumptions C25_mult.

(** C26: multT adds the transpose times x to the owned entries of y. *)
Theorem C26_multT :
  forall T (zero one : T) add mul sub opp, ring_theory zero one add mul sub opp eq ->
  forall P maps0 maps1 bs0 bs1 (mats : nat -> csr T) offs,
    maps_ok P maps0 -> maps_ok P maps1 -> mats_ok P maps0 maps1 bs0 bs1 mats -> offs_ok P maps0 maps1 offs mats ->
  forall xs ys, (forall r, r < P -> bs0 * size_local (maps0 r) <= length (xs r)) -> full_size P maps1 bs1 ys ->
  forall r, r < P -> exists y', multT zero add P maps0 maps1 mats mul offs xs ys r = Some y' /\ length y' = length (ys r) /\
    forall c k1, c < size_local (maps1 r) -> k1 < bs1 ->
      nth (c * bs1 + k1) y' zero
      = add (nth (c * bs1 + k1) (ys r) zero) (product_T zero add mul P maps0 maps1 bs0 bs1 mats xs (im_lo (maps1 r) + c) k1).
Proof. exact @multT_statement. Qed.
Print Assumptions C26_multT.

(** C57: the squared norm is the sum over all entries of the global matrix. *)
Theorem C57_squared_norm :
  forall T (zero one : T) add mul sub opp, ring_theory zero one add mul sub opp eq ->
  forall P maps0 maps1 bs0 bs1 (mats : nat -> csr T),
    maps_ok P maps0 -> maps_ok P maps1 -> mats_ok P maps0 maps1 bs0 bs1 mats ->
  forall normv : T -> T, normv zero = zero ->
  squared_norm zero add P maps0 mats normv =
  Some (tsum T zero add (map (fun G => tsum T zero add (map (fun g => tsum T zero add (map (fun k0 => tsum T zero add (map (fun k1 =>
          normv (gmat zero P maps0 maps1 bs0 bs1 mats G g k0 k1)) (seq 0 bs1))) (seq 0 bs0)))
          (seq 0 (global_size P maps1)))) (seq 0 (global_size P maps0)))).
Proof. exact @norm_statement. Qed.
Print Assumptions C57_squared_norm.

(** The finalised pattern of [ex_finalize] with blocks of one row and two columns. *)
Definition ex_newp r := match sp_finalize 3 (senders 3) ex_maps ex_maps ex_pats r with Some (p, _) => p | None => pt_empty end.
Definition ex_newm r := match sp_finalize 3 (senders 3) ex_maps ex_maps ex_pats r with Some (_, m) => m | None => ex_maps r end.
Definition ex_built (r : nat) : csr Z * list nat :=
  match pt_final (ex_newp r) with
  | Some f => csr_compact 0%Z 1 2 (sp_edges f) (sp_offsets f) (sp_offdiag f)
  | None => (mkCSR 1 2 [] [] [], [])
  end.
Definition ex_mats r : csr Z :=
  let A := fst (ex_built r) in
  mkCSR (mt_bs0 A) (mt_bs1 A) (mt_cols A) (mt_rp A) (map (fun i => Z.of_nat (10 * r + S i)) (seq 0 (length (mt_data A)))).
Definition ex_offs r := snd (ex_built r).
Example ex_mats_ok : maps_ok 3 ex_newm /\ mats_ok 3 ex_maps ex_newm 1 2 ex_mats /\ offs_ok 3 ex_maps ex_newm ex_offs ex_mats /\ narrow_columns 3 ex_newm.
Proof.
  assert (H : maps_ok 3 ex_newm /\ mats_ok 3 ex_maps ex_newm 1 2 ex_mats /\ offs_ok 3 ex_maps ex_newm ex_offs ex_mats).
  { apply (C24_pattern_matrices Z 0%Z 3 (senders 3) ex_maps ex_maps ex_pats ex_newp ex_newm); try exact ex_maps_ok; try lia.
    - intros d r _. reflexivity.
    - exact ex_pats_ok.
    - intros [|[|[|r]]] Hr; [| | |lia]; vm_compute; reflexivity.
    - intros [|[|[|r]]] Hr; [| | |lia]; eexists; (split; [vm_compute; reflexivity|]); vm_compute; repeat (split; [reflexivity|]); reflexivity. }
  do 2 (destruct H as (? & H); split; [assumption|]). split; [assumption|].
  intros [|[|[|r]]] Hr; [| | |lia]; vm_compute; discriminate.
Qed.
Definition ex_x (r : nat) : list Z := map (fun i => Z.of_nat (i + 1)) (seq 0 (2 * (size_local (ex_newm r) + num_ghosts (ex_newm r)))).
Definition ex_y (r : nat) : list Z := repeat 100%Z (2 * (size_local (ex_newm r) + num_ghosts (ex_newm r))).
Example ex_par :
  map (fun r => option_map mt_data (scatter_rev 0%Z Z.add 3 ex_maps ex_newm ex_mats r)) (seq 0 3)
    = [Some [16;18;20;22;5;6;26;28;0;0]; Some [0;0;0;0;0;0;0;0;0;0]; Some [21;22;23;24;38;40;36;38;40;42]]%Z /\
  map (fun r => option_map snd (mult 0%Z Z.add 3 ex_maps ex_newm ex_mats Z.mul ex_offs ex_x ex_y r)) (seq 0 3)
    = [Some [144;100;200;100;100;100;100;100]; Some (repeat 100 6); Some [165;828;100;100;100;100;100;100;100;100]]%Z /\
  squared_norm 0%Z Z.add 3 ex_maps ex_mats (fun x => Z.mul x x) = Some 6789%Z.
Proof. vm_compute. auto. Qed.
