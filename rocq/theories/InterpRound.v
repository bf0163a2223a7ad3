(** Interpolation followed by evaluation. *)
From Verif Require Import Base BaseProofs Interp InterpSpec InterpWrites InterpProofs InterpEval.

Section Round.
Variables (T : Type) (zero one : T) (add mul : T -> T -> T).
Hypothesis add_zero_l : forall x, add zero x = x.
Hypothesis add_zero_r : forall x, add x zero = x.
Hypothesis mul_one : forall x, mul x one = x.
Hypothesis mul_zero : forall x, mul x zero = zero.

Lemma written_agree bs dofmap dim cells (value : nat -> nat -> T) array array' :
  dofmap_fits bs dofmap dim (length array) cells -> written bs dofmap dim cells value array array' ->
  (forall o c m o' c' m' a, nth_error cells o = Some c -> nth_error cells o' = Some c' -> m < dim -> m' < dim ->
     cell_dof bs dofmap c m = Some a -> cell_dof bs dofmap c' m' = Some a -> value o m = value o' m') ->
  forall o c, nth_error cells o = Some c -> cell_coefficients T zero bs dofmap dim array' c = map (value o) (seq 0 dim).
Proof.
  intros (Hb & Hf) (_ & _ & W) Hag o c Ho. unfold cell_coefficients. apply map_ext_in. intros m Hm. apply in_seq in Hm.
  destruct (Hf c (nth_error_In _ _ Ho)) as (dofs & Hn & Hl & _).
  pose proof (cell_dof_place bs dofmap c dofs m Hn Hb ltac:(lia)) as Hd. rewrite Hd.
  destruct (W _ c m (nth_error_In _ _ Ho) Hd) as (o' & c' & m' & Ho' & Hm' & Hd' & Hv & _).
  rewrite (nth_error_nth _ _ zero Hv). symmetry. eapply Hag; [exact Ho|exact Ho'|lia|exact Hm'|exact Hd|exact Hd'].
Qed.

Lemma dot_unit (a : nat -> T) l i : NoDup l -> forall s, dot_from T add mul s (map a l) (map (fun i' => if i' =? i then one else zero) l) = if in_dec Nat.eq_dec i l then add s (a i) else s.
Proof.
  intro ND. induction ND as [|x l Hx ND IH]; intro s; [reflexivity|]. cbn [map dot_from]. destruct (Nat.eqb_spec x i) as [->|Ne].
  - rewrite mul_one, IH. destruct (in_dec Nat.eq_dec i l); [contradiction|]. destruct (in_dec Nat.eq_dec i (i :: l)) as [_|K]; [reflexivity|]. exfalso. apply K. now left.
  - rewrite mul_zero, add_zero_r, IH. destruct (in_dec Nat.eq_dec i l) as [I|I], (in_dec Nat.eq_dec i (x :: l)) as [J|J]; auto.
    + exfalso. apply J. now right.
    + destruct J as [J|J]; [congruence|contradiction].
Qed.

Lemma expansion_unit bs dim coefs B i k : i < dim -> B = map (fun i' => [if i' =? i then one else zero]) (seq 0 dim) ->
  expansion T zero add mul bs dim coefs B k 0 = nth (bs * i + k) coefs zero.
Proof.
  intros Hi ->. unfold expansion, dot.
  rewrite (map_ext_in (fun i' => nth 0 (nth i' (map (fun i' => [if i' =? i then one else zero]) (seq 0 dim)) []) zero) (fun i' => if i' =? i then one else zero)).
  - rewrite (dot_unit (fun i => nth (bs * i + k) coefs zero) (seq 0 dim) i (seq_NoDup _ _)). destruct (in_dec Nat.eq_dec i (seq 0 dim)) as [_|K]; [apply add_zero_l|].
    exfalso. apply K. apply in_seq. lia.
  - intros i' Hi'. apply in_seq in Hi'. rewrite (nth_error_nth _ i' [] (x := [if i' =? i then one else zero])); [reflexivity|]. rewrite nth_error_map_some, nth_error_seq by lia. reflexivity.
Qed.

Lemma holds_component symmetric n ebs comp k : holds symmetric n ebs comp k 0 ->
  exists comp', component symmetric n k comp' /\ (symmetric = false -> comp' = comp) /\
    (symmetric = true -> forall row col, row < n -> col < n -> comp = n * row + col -> comp' = n * Nat.max row col + Nat.min row col).
Proof.
  unfold holds, component. destruct symmetric.
  - intros (_ & r & c & H1 & H2 & -> & H4). exists (n * Nat.max r c + Nat.min r c). split; [|split; [discriminate|]].
    + exists (Nat.max r c), (Nat.min r c). repeat split; try lia.
    + intros _ row col Hr Hc E. assert (r = row) by nia. subst. assert (c = col) by nia. now subst.
  - intros (_ & ->). exists k. split; [reflexivity|]. split; [intros; lia|discriminate].
Qed.
End Round.
