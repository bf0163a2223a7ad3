(** C74: interpolation puts into each degree of freedom the value that belongs to it. *)
From Verif Require Import Base BaseProofs Interp InterpSpec InterpWrites InterpProofs InterpEval InterpRound.

(** Elements whose degrees of freedom are the values at points. *)
Theorem C74_point_values : forall (T : Type) (zero : T) add mul ebs nsd vs num_sub value_size dbs symmetric points Pi dofmap transform cells (f : list T) n n1 coeffs value,
  dofmap_fits dbs dofmap (ebs * nsd) (length coeffs) cells ->
  (forall c xs, In c cells -> length xs = nsd -> length (transform c xs) = nsd) ->
  (num_sub = 0 \/ num_sub = ebs) ->
  (if symmetric : bool then value_size = n * n /\ 2 * ebs = n * (n + 1) else value_size = ebs) ->
  n1 = length cells * nsd -> length f = value_size * n1 ->
  (forall o c i k comp, nth_error cells o = Some c -> i < nsd -> k < ebs -> component symmetric n k comp ->
     value o (i * ebs + k) = nth i (transform c (point_values T zero f n1 nsd comp o)) zero) ->
  exists coeffs',
    interpolate_values T zero add mul ebs nsd vs num_sub value_size dbs symmetric true points Pi dofmap transform cells f (value_size, n1) coeffs = Some coeffs' /\
    written dbs dofmap (ebs * nsd) cells value coeffs coeffs'.
Proof.
  intros T zero add mul ebs nsd vs num_sub value_size dbs symmetric points Pi dofmap transform cells f n n1 coeffs value H1 H2 H3 H4 H5 H6 H7.
  unfold interpolate_values. cbn [fst snd]. rewrite !Nat.eqb_refl, H6, Nat.eqb_refl. cbn [negb orb].
  replace ((0 <? num_sub) && negb (num_sub =? ebs)) with false by (symmetry; destruct H3 as [-> | ->]; [reflexivity|rewrite Nat.eqb_refl; apply andb_false_r]).
  exact (point_evaluation_written T zero ebs nsd dbs symmetric dofmap transform cells f value_size n n1 coeffs value H1 H2 H4 H5 H6 H7).
Qed.
Print Assumptions C74_point_values.

(** Elements with other functionals: the matrix [Pi] times the values of all components. *)
Theorem C74_moments : forall (T : Type) (zero : T) add mul ebs nsd vs num_sub value_size dbs npoints Pi dofmap transform cells (f : list T) n1 coeffs value,
  dofmap_fits dbs dofmap (ebs * nsd) (length coeffs) cells ->
  (forall c xs, In c cells -> length xs = nsd -> length (transform c xs) = nsd) ->
  (num_sub = 0 \/ num_sub = ebs) ->
  0 < vs -> (vs = 1 \/ ebs <= 1) -> value_size = vs * ebs ->
  length Pi = nsd -> (forall row, In row Pi -> length row = vs * npoints) ->
  n1 = length cells * npoints -> length f = value_size * n1 ->
  (forall o c i k, nth_error cells o = Some c -> i < nsd -> k < ebs ->
     value o (i * ebs + k) = nth i (transform c (map (fun row => dot T zero add mul row (concat (map (fun j => point_values T zero f n1 npoints (j + k) o) (seq 0 vs)))) Pi)) zero) ->
  exists coeffs',
    interpolate_values T zero add mul ebs nsd vs num_sub value_size dbs false false (vs * npoints) Pi dofmap transform cells f (value_size, n1) coeffs = Some coeffs' /\
    written dbs dofmap (ebs * nsd) cells value coeffs coeffs'.
Proof.
  intros T zero add mul ebs nsd vs num_sub value_size dbs npoints Pi dofmap transform cells f n1 coeffs value H1 H2 H3 H4 H5 H6 H7 H8 H9 H10 H11.
  unfold interpolate_values. cbn [fst snd]. rewrite !Nat.eqb_refl, H10, Nat.eqb_refl. cbn [negb orb].
  replace ((0 <? num_sub) && negb (num_sub =? ebs)) with false by (symmetry; destruct H3 as [-> | ->]; [reflexivity|rewrite Nat.eqb_refl; apply andb_false_r]).
  exact (identity_mapped_written T zero add mul ebs nsd vs dbs npoints Pi dofmap transform cells f value_size n1 coeffs value H1 H2 H4 H5 H6 H7 H8 H9 H10 H11).
Qed.
Print Assumptions C74_moments.

(** The same element: the coefficients of the cell are copied, whatever the block sizes of the
    two dof maps. *)
Theorem C74_same_element : forall (T : Type) (zero : T) bs0 bs1 dim dofmap0 dofmap1 cells0 cells1 (array0 array1 : list T),
  length cells0 = length cells1 ->
  dofmap_fits bs0 dofmap0 dim (length array0) cells0 -> dofmap_fits bs1 dofmap1 dim (length array1) cells1 ->
  exists array', interpolate_copy T bs0 bs1 dofmap0 dofmap1 cells0 cells1 array0 array1 = Some array' /\
    written bs1 dofmap1 dim cells1 (fun o m => nth m (cell_coefficients T zero bs0 dofmap0 dim array0 (nth o cells0 0)) zero) array1 array'.
Proof. exact copy_written. Qed.
Print Assumptions C74_same_element.

(** Different elements with the same map: the interpolation matrix times the coefficients of
    the cell. *)
Theorem C74_same_map : forall (T : Type) (zero : T) add mul bs0 bs1 dim0 dim1 im dofmap0 dofmap1 transform0 transform1 cells0 cells1 (array0 array1 : list T),
  length cells0 = length cells1 ->
  dofmap_fits bs0 dofmap0 dim0 (length array0) cells0 -> dofmap_fits bs1 dofmap1 dim1 (length array1) cells1 ->
  length im = dim1 -> (forall row, In row im -> length row = dim0) ->
  (forall c xs, In c cells0 -> length xs = dim0 -> length (transform0 c xs) = dim0) ->
  (forall c xs, In c cells1 -> length xs = dim1 -> length (transform1 c xs) = dim1) ->
  exists array', interpolate_same_map T zero add mul bs0 bs1 dim0 im dofmap0 dofmap1 transform0 transform1 cells0 cells1 array0 array1 = Some array' /\
    written bs1 dofmap1 dim1 cells1
      (fun o m => nth m (transform1 (nth o cells1 0) (map (fun row => dot T zero add mul row (transform0 (nth o cells0 0) (cell_coefficients T zero bs0 dofmap0 dim0 array0 (nth o cells0 0)))) im)) zero)
      array1 array'.
Proof. exact same_map_written. Qed.
Print Assumptions C74_same_map.

(** Evaluation: each component at each point is the sum over the basis functions of the cell; points
    without a cell get zero. *)
Theorem C74_eval : forall (T : Type) (zero : T) add mul bs dim vs symmetric n width (A : Type) (basis : nat -> A -> list (list T)) bs_dof dofmap v points cells u,
  (if symmetric : bool then vs = 1 /\ width = n * n /\ 2 * bs = n * (n + 1) else width = bs * vs) ->
  length points = length cells -> length u = length points * width ->
  dofmap_fits bs_dof dofmap (dim * bs) (length v) (concat (map (fun oc : option nat => match oc with Some c => [c] | None => [] end) cells)) ->
  (forall c x, length (basis c x) = dim /\ forall row, In row (basis c x) -> length row = vs) ->
  exists u', eval T zero add mul A basis bs dim vs bs_dof symmetric dofmap v points cells u width = Some u' /\ length u' = length u /\
    forall p x oc, nth_error points p = Some x -> nth_error cells p = Some oc -> forall comp k j, comp < width -> holds symmetric n bs comp k j ->
      nth_error u' (p * width + comp) = Some (match oc with
        | Some c => expansion T zero add mul bs dim (cell_coefficients T zero bs_dof dofmap (dim * bs) v c) (basis c x) k j
        | None => zero
        end).
Proof. intros. now apply eval_spec. Qed.
Print Assumptions C74_eval.

(** Interpolating values and evaluating at the points gives the values back: for cells
    that agree about the degrees of freedom they share, and basis functions that are one at their own point
    and zero at the others.  A symmetric matrix comes from its lower triangle. *)
Theorem C74_round_trip : forall (T : Type) (zero one : T) add mul ebs nsd dbs symmetric dofmap cells (f : list T) n n0 n1 coeffs value (A : Type) (basis : nat -> A -> list (list T)),
  (forall x, add zero x = x) -> (forall x, add x zero = x) -> (forall x, mul x one = x) -> (forall x, mul x zero = zero) ->
  dofmap_fits dbs dofmap (ebs * nsd) (length coeffs) cells ->
  (if symmetric : bool then n0 = n * n /\ 2 * ebs = n * (n + 1) else n0 = ebs) ->
  n1 = length cells * nsd -> length f = n0 * n1 ->
  (forall c x, length (basis c x) = nsd /\ forall row, In row (basis c x) -> length row = 1) ->
  (forall o c i k comp, nth_error cells o = Some c -> i < nsd -> k < ebs -> component symmetric n k comp -> value o (i * ebs + k) = nth (comp * n1 + o * nsd + i) f zero) ->
  (forall o c m o' c' m' a, nth_error cells o = Some c -> nth_error cells o' = Some c' -> m < ebs * nsd -> m' < ebs * nsd ->
     cell_dof dbs dofmap c m = Some a -> cell_dof dbs dofmap c' m' = Some a -> value o m = value o' m') ->
  exists coeffs',
    point_evaluation T ebs nsd dbs symmetric dofmap (fun _ xs => xs) cells f (n0, n1) coeffs = Some coeffs' /\
    forall o c i x, nth_error cells o = Some c -> i < nsd -> basis c x = map (fun i' => [if i' =? i then one else zero]) (seq 0 nsd) ->
    exists u, eval T zero add mul A basis ebs nsd 1 dbs symmetric dofmap coeffs' [x] [Some c] (repeat zero n0) n0 = Some u /\ length u = n0 /\
      (symmetric = false -> forall comp, comp < n0 -> nth_error u comp = Some (nth (comp * n1 + o * nsd + i) f zero)) /\
      (symmetric = true -> forall row col, row < n -> col < n ->
         nth_error u (n * row + col) = Some (nth ((n * Nat.max row col + Nat.min row col) * n1 + o * nsd + i) f zero)).
Proof.
  intros T zero one add mul ebs nsd dbs symmetric dofmap cells f n n0 n1 coeffs value A basis L1 L2 L3 L4 Hf Hs Hn1 Hlen HB Hv Hag.
  destruct (point_evaluation_written T zero ebs nsd dbs symmetric dofmap (fun _ xs => xs) cells f n0 n n1 coeffs value Hf) as (coeffs' & E & W); auto.
  { intros o c i k comp Ho Hi Hk Hc. rewrite (Hv o c i k comp Ho Hi Hk Hc). symmetry. unfold point_values. apply nth_error_nth. rewrite nth_error_map_some, nth_error_seq by exact Hi. reflexivity. }
  exists coeffs'. split; [exact E|]. intros o c i x Ho Hi Hbas.
  pose proof (written_agree T zero dbs dofmap (ebs * nsd) cells value coeffs coeffs' Hf W Hag o c Ho) as Hco.
  assert (Hf' : dofmap_fits dbs dofmap (nsd * ebs) (length coeffs') (concat (map (fun oc : option nat => match oc with Some c => [c] | None => [] end) [Some c]))).
  { destruct Hf as (Hb & Hf). split; [exact Hb|]. intros c' Hin. cbn in Hin. destruct Hin as [<-|[]]. rewrite (Nat.mul_comm nsd). destruct W as (-> & _). apply Hf. eapply nth_error_In; eauto. }
  destruct (eval_spec T zero add mul ebs nsd 1 symmetric n n0 ltac:(destruct symmetric; [tauto|lia]) A basis dbs dofmap coeffs' [x] [Some c] (repeat zero n0) eq_refl ltac:(rewrite repeat_length; cbn; lia) Hf' HB) as (u & Eu & Lu & Nu).
  exists u. split; [exact Eu|]. split; [now rewrite Lu, repeat_length|].
  assert (G : forall comp k, comp < n0 -> k < ebs -> holds symmetric n ebs comp k 0 -> exists comp', component symmetric n k comp' /\ (symmetric = false -> comp' = comp) /\
      (symmetric = true -> forall row col, row < n -> col < n -> comp = n * row + col -> comp' = n * Nat.max row col + Nat.min row col) /\
      nth_error u comp = Some (nth (comp' * n1 + o * nsd + i) f zero)).
  { intros comp k Hcomp Hk Hh. destruct (holds_component symmetric n ebs comp k Hh) as (comp' & C1 & C2 & C3). exists comp'. split; [exact C1|]. split; [exact C2|]. split; [exact C3|].
    specialize (Nu 0 x (Some c) eq_refl eq_refl comp k 0 Hcomp Hh). cbn [Nat.mul plus] in Nu. rewrite Nu. f_equal.
    rewrite (expansion_unit T zero one add mul L1 L2 L3 L4 ebs nsd _ _ i k Hi Hbas). rewrite (Nat.mul_comm nsd), Hco.
    rewrite <- (Hv o c i k comp' Ho Hi Hk C1). apply nth_error_nth. rewrite nth_error_map_some, nth_error_seq by nia. cbn [option_map plus]. do 2 f_equal. lia. }
  destruct symmetric.
  - split; [discriminate|]. intros _ row col Hr Hc. destruct Hs as (-> & Hebs).
    assert (Hk : exists k, 2 * k = Nat.max row col * (Nat.max row col + 1) + 2 * Nat.min row col /\ k < ebs).
    { assert (Hev : exists t, Nat.max row col * (Nat.max row col + 1) = 2 * t).
      { generalize (Nat.max row col). intro a. destruct (Nat.Even_or_Odd a) as [(b & ->)|(b & ->)]; [exists (b * (2 * b + 1)); lia|exists ((2 * b + 1) * (b + 1)); lia]. }
      destruct Hev as (t & Ht). exists (t + Nat.min row col). split; [lia|].
      assert (Nat.max row col < n) by lia. assert (Nat.min row col <= Nat.max row col) by lia. nia. }
    destruct Hk as (k & Hk & Lk). destruct (G (n * row + col) k) as (comp' & _ & _ & C3 & N).
    + nia.
    + exact Lk.
    + split; [reflexivity|]. exists row, col. auto.
    + rewrite N. now rewrite (C3 eq_refl row col Hr Hc eq_refl).
  - split; [|discriminate]. intros _ comp Hcomp. subst n0. destruct (G comp comp Hcomp Hcomp) as (comp' & _ & C2 & _ & N).
    + split; [exact Hcomp|lia].
    + rewrite N. now rewrite (C2 eq_refl).
Qed.
Print Assumptions C74_round_trip.

(** ** Examples *)
(** Two triangles with the vertices 0 1 2 and 1 3 2, symmetric 2 x 2 matrices. *)
Definition tx_dofmap : list (list nat) := [[0; 1; 2]; [1; 3; 2]].
Definition tx_points : list (list Z) := (* components 00, 01, 10, 11 at the six points *)
  [[1; 2; 3; 2; 4; 3]; [90; 91; 92; 93; 94; 95]; [5; 6; 7; 6; 8; 7]; [10; 20; 30; 20; 40; 30]]%Z.
Definition tx_f : list Z := concat tx_points.
Definition tx_coeffs := point_evaluation Z 3 3 3 true tx_dofmap (fun _ xs => xs) [0; 1] tx_f (4, 6) (repeat 0%Z 12).
Example C74_computed : tx_coeffs = Some [1; 5; 10; 2; 6; 20; 3; 7; 30; 4; 8; 40]%Z.
Proof. vm_compute. reflexivity. Qed.
Definition tx_basis (c : nat) (p : nat) : list (list Z) := map (fun i => [if i =? p then 1%Z else 0%Z]) (seq 0 3).
Example C74_eval_computed : (u <- tx_coeffs ;; eval Z 0%Z Z.add Z.mul nat tx_basis 3 3 1 3 true tx_dofmap u [1; 0; 2] [Some 1; None; Some 0] (repeat 0%Z 12) 4)
  = Some [4; 8; 8; 40; 0; 0; 0; 0; 3; 7; 7; 30]%Z.
Proof. vm_compute. reflexivity. Qed.
Definition tx_value (o m : nat) : Z := nth m (nth o [[1; 5; 10; 2; 6; 20; 3; 7; 30]; [2; 6; 20; 4; 8; 40; 3; 7; 30]]%Z []) 0%Z.
Example C74_example : exists coeffs',
    point_evaluation Z 3 3 3 true tx_dofmap (fun _ xs => xs) [0; 1] tx_f (4, 6) (repeat 0%Z 12) = Some coeffs' /\
    exists u, eval Z 0%Z Z.add Z.mul nat tx_basis 3 3 1 3 true tx_dofmap coeffs' [1] [Some 1] (repeat 0%Z 4) 4 = Some u /\
      nth_error u 1 = Some 8%Z /\ nth_error u 2 = Some 8%Z.
Proof.
  destruct (C74_round_trip Z 0%Z 1%Z Z.add Z.mul 3 3 3 true tx_dofmap [0; 1] tx_f 2 4 6 (repeat 0%Z 12) tx_value nat tx_basis) as (cf & E & H).
  - reflexivity.
  - intro x. lia.
  - intro x. lia.
  - intro x. lia.
  - split; [lia|]. intros c [<-|[<-|[]]]; [exists [0; 1; 2]|exists [1; 3; 2]]; (split; [reflexivity|]); (split; [reflexivity|]); intros d Hd; cbn in *; lia.
  - split; reflexivity.
  - reflexivity.
  - reflexivity.
  - intros c x. unfold tx_basis. split; [reflexivity|]. intros row Hr. apply in_map_iff in Hr as (i & <- & _). reflexivity.
  - intros o c i k comp Ho Hi Hk (r & l & H1 & H2 & H3 & ->).
    assert (Hk' : k = 0 /\ r = 0 /\ l = 0 \/ k = 1 /\ r = 1 /\ l = 0 \/ k = 2 /\ r = 1 /\ l = 1) by nia.
    destruct o as [|[|o]]; try (destruct o; discriminate); destruct i as [|[|[|i]]]; try lia; destruct Hk' as [(-> & -> & ->)|[(-> & -> & ->)|(-> & -> & ->)]]; reflexivity.
  - intros o c m o' c' m' a Ho Ho' Hm Hm' Ha Ha'.
    assert (V : forall o c m, nth_error [0; 1] o = Some c -> m < 9 -> exists a, cell_dof 3 tx_dofmap c m = Some a /\ tx_value o m = nth a [1; 5; 10; 2; 6; 20; 3; 7; 30; 4; 8; 40]%Z 0%Z).
    { clear. intros o c m Ho Hm. destruct o as [|[|o]]; [| |destruct o; discriminate]; injection Ho as <-; do 9 (destruct m as [|m]; [eexists; split; reflexivity|]); lia. }
    destruct (V o c m Ho Hm) as (b & Hb & ->). destruct (V o' c' m' Ho' Hm') as (b' & Hb' & ->). congruence.
  - exists cf. split; [exact E|]. destruct (H 1 1 1 1 eq_refl ltac:(lia) eq_refl) as (u & Eu & _ & _ & S). exists u. split; [exact Eu|].
    split; [exact (S eq_refl 0 1 ltac:(lia) ltac:(lia))|exact (S eq_refl 1 0 ltac:(lia) ltac:(lia))].
Qed.

(** A scalar space with two values per block, read as a dof map of block size two. *)
Example C74_copy_computed :
  interpolate_copy nat 1 2 [[3; 2; 0; 1]; [0; 1; 5; 4]] [[1; 0]; [0; 2]] [0; 1] [0; 1] [10; 11; 12; 13; 14; 15] (repeat 0 6) = Some [10; 11; 13; 12; 15; 14].
Proof. vm_compute. reflexivity. Qed.
Example C74_copy_example : exists array', interpolate_copy nat 1 2 [[3; 2; 0; 1]; [0; 1; 5; 4]] [[1; 0]; [0; 2]] [0; 1] [0; 1] [10; 11; 12; 13; 14; 15] (repeat 0 6) = Some array' /\
  written 2 [[1; 0]; [0; 2]] 4 [0; 1] (fun o m => nth m (cell_coefficients nat 0 1 [[3; 2; 0; 1]; [0; 1; 5; 4]] 4 [10; 11; 12; 13; 14; 15] (nth o [0; 1] 0)) 0) (repeat 0 6) array'.
Proof.
  apply C74_same_element; [reflexivity| |].
  - split; [lia|]. intros c [<-|[<-|[]]]; [exists [3; 2; 0; 1]|exists [0; 1; 5; 4]]; (split; [reflexivity|]); (split; [reflexivity|]); intros d Hd; cbn in *; lia.
  - split; [lia|]. intros c [<-|[<-|[]]]; [exists [1; 0]|exists [0; 2]]; (split; [reflexivity|]); (split; [reflexivity|]); intros d Hd; cbn in *; lia.
Qed.
(** Degree one to degree two on an interval: the middle is the mean of twice the values; and a moment. *)
Example C74_same_map_computed : interpolate_same_map Z 0%Z Z.add Z.mul 1 1 2 [[2; 0]; [0; 2]; [1; 1]]%Z [[0; 1]; [1; 2]] [[0; 1; 3]; [1; 2; 4]] (fun _ xs => xs) (fun _ xs => xs) [0; 1] [0; 1] [1; 3; 9]%Z (repeat 0%Z 5)
  = Some [2; 6; 18; 4; 12]%Z.
Proof. vm_compute. reflexivity. Qed.
Example C74_same_map_example : exists array', interpolate_same_map Z 0%Z Z.add Z.mul 1 1 2 [[2; 0]; [0; 2]; [1; 1]]%Z [[0; 1]; [1; 2]] [[0; 1; 3]; [1; 2; 4]] (fun _ xs => xs) (fun _ xs => xs) [0; 1] [0; 1] [1; 3; 9]%Z (repeat 0%Z 5) = Some array' /\ length array' = 5.
Proof.
  destruct (C74_same_map Z 0%Z Z.add Z.mul 1 1 2 3 [[2; 0]; [0; 2]; [1; 1]]%Z [[0; 1]; [1; 2]] [[0; 1; 3]; [1; 2; 4]] (fun _ xs => xs) (fun _ xs => xs) [0; 1] [0; 1] [1; 3; 9]%Z (repeat 0%Z 5)) as (a & E & (L & _)).
  - reflexivity.
  - split; [lia|]. intros c [<-|[<-|[]]]; [exists [0; 1]|exists [1; 2]]; (split; [reflexivity|]); (split; [reflexivity|]); intros d Hd; cbn in *; lia.
  - split; [lia|]. intros c [<-|[<-|[]]]; [exists [0; 1; 3]|exists [1; 2; 4]]; (split; [reflexivity|]); (split; [reflexivity|]); intros d Hd; cbn in *; lia.
  - reflexivity.
  - intros row [<-|[<-|[<-|[]]]]; reflexivity.
  - auto.
  - auto.
  - exists a. split; [exact E|exact L].
Qed.
Example C74_moments_example : exists coeffs', interpolate_values Z 0%Z Z.add Z.mul 1 2 2 0 2 1 false false 4 [[1; 1; 0; 0]; [0; 0; 1; -1]]%Z [[0; 1]] (fun _ xs => xs) [0] [1; 2; 3; 5]%Z (2, 2) [7; 7; 7]%Z = Some coeffs' /\
  written 1 [[0; 1]] 2 [0] (fun _ m => nth m [3; -2] 0)%Z [7; 7; 7]%Z coeffs'.
Proof.
  apply (C74_moments Z 0%Z Z.add Z.mul 1 2 2 0 2 1 2 [[1; 1; 0; 0]; [0; 0; 1; -1]]%Z [[0; 1]] (fun _ xs => xs) [0] [1; 2; 3; 5]%Z 2 [7; 7; 7]%Z); auto.
  - split; [lia|]. intros c [<-|[]]; exists [0; 1]; (split; [reflexivity|]); (split; [reflexivity|]); intros d Hd; cbn in *; lia.
  - intros row [<-|[<-|[]]]; reflexivity.
  - intros o c i k Ho Hi Hk. destruct o as [|o]; [|destruct o; discriminate]. assert (k = 0) as -> by lia. destruct i as [|[|i]]; [reflexivity|reflexivity|lia].
Qed.
Example C74_moments_computed : interpolate_values Z 0%Z Z.add Z.mul 1 2 2 0 2 1 false false 4 [[1; 1; 0; 0]; [0; 0; 1; -1]]%Z [[0; 1]] (fun _ xs => xs) [0] [1; 2; 3; 5]%Z (2, 2) [7; 7; 7]%Z = Some [3; -2; 7]%Z.
Proof. vm_compute. reflexivity. Qed.
