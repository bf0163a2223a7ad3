(** Sorted and padded facet rows. *)
From Verif Require Import Base BaseProofs Algo AlgoProofs CellTypes DualGraph.
Open Scope nat_scope.

Lemma zleb_total x y : (x <=? y)%Z = true \/ (y <=? x)%Z = true. Proof. rewrite !Z.leb_le. lia. Qed.
Lemma zleb_trans x y z : (x <=? y)%Z = true -> (y <=? z)%Z = true -> (x <=? z)%Z = true. Proof. rewrite !Z.leb_le. lia. Qed.
Lemma zleb_antisym x y : (x <=? y)%Z = true -> (y <=? x)%Z = true -> x = y. Proof. rewrite !Z.leb_le. lia. Qed.

Lemma zsort_unique l l' : StronglySorted (fun x y => (x <=? y)%Z = true) l' -> Permutation l l' -> isort Z.leb l = l'.
Proof. apply isort_unique; [exact zleb_total|exact zleb_trans|exact zleb_antisym]. Qed.
Lemma zsort_perm_eq l l' : Permutation l l' -> isort Z.leb l = isort Z.leb l'.
Proof. apply isort_perm_eq; [exact zleb_total|exact zleb_trans|exact zleb_antisym]. Qed.

Lemma cex_perm i j row r : i <> j -> cex i j row = Some r -> Permutation row r /\ length r = length row /\
  (forall k, k <> i -> k <> j -> nth_error r k = nth_error row k) /\
  exists a b, nth_error row i = Some a /\ nth_error row j = Some b /\ nth_error r i = Some (Z.min a b) /\ nth_error r j = Some (Z.max a b).
Proof.
  intros N E. unfold cex in E. destruct (nth_error row i) as [a|] eqn:Ea; [|discriminate]. cbn [obind] in E.
  destruct (nth_error row j) as [b|] eqn:Eb; [|discriminate]. cbn [obind] in E.
  destruct (Z.ltb_spec b a) as [H|H].
  - destruct (upd row i b) as [r1|] eqn:E1; [|discriminate]. cbn [obind] in E.
    assert (Lr : length r = length row) by (rewrite (upd_length _ _ _ _ E); exact (upd_length _ _ _ _ E1)).
    assert (Hn : forall k, nth_error r k = if k =? j then Some a else if k =? i then Some b else nth_error row k).
    { intro k. rewrite (upd_nth _ _ _ k _ E). rewrite (Nat.eqb_sym j k). destruct (Nat.eqb_spec k j); [reflexivity|].
      rewrite (upd_nth _ _ _ k _ E1), (Nat.eqb_sym i k). reflexivity. }
    split; [|split; [exact Lr|split]].
    + apply Permutation_nth_error. split; [now symmetry|].
      exists (fun k => if k =? j then i else if k =? i then j else k). split.
      * intros x y. destruct (Nat.eqb_spec x j), (Nat.eqb_spec x i), (Nat.eqb_spec y j), (Nat.eqb_spec y i); lia.
      * intro k. rewrite Hn. destruct (Nat.eqb_spec k j); [now rewrite Ea|]. destruct (Nat.eqb_spec k i); [now rewrite Eb|reflexivity].
    + intros k K1 K2. rewrite Hn. destruct (Nat.eqb_spec k j); [congruence|]. destruct (Nat.eqb_spec k i); [congruence|reflexivity].
    + exists a, b. split; [reflexivity|]. split; [reflexivity|]. rewrite !Hn, !Nat.eqb_refl.
      destruct (Nat.eqb_spec i j); [congruence|]. split; f_equal; lia.
  - injection E as <-. split; [reflexivity|]. split; [reflexivity|]. split; [auto|].
    exists a, b. split; [reflexivity|]. split; [reflexivity|]. rewrite Ea, Eb. split; f_equal; lia.
Qed.
Lemma cex_some i j row : i < length row -> j < length row -> exists r, cex i j row = Some r.
Proof.
  intros Hi Hj. unfold cex. destruct (nth_error_lt row i Hi) as (a & ->). destruct (nth_error_lt row j Hj) as (b & ->). cbn [obind].
  destruct (b <? a)%Z; [|eauto]. destruct (upd_some row i b Hi) as (r & E). rewrite E. cbn [obind]. apply upd_some. now rewrite (upd_length _ _ _ _ E).
Qed.

Lemma cex_p i j row r : i <> j -> cex i j row = Some r -> Permutation row r.
Proof. intros N E. exact (proj1 (cex_perm i j row r N E)). Qed.

Ltac steps := repeat match goal with H : obind ?o _ = Some _ |- _ => let E := fresh "E" in destruct o eqn:E; [cbn [obind] in H|discriminate H] end.
Ltac sorted_cases := cbn; repeat (match goal with |- context [(?a <? ?b)%Z] => destruct (Z.ltb_spec a b) end; cbn);
  (eexists; split; [reflexivity|]);
  repeat first [apply SSorted_nil | apply SSorted_cons | apply Forall_nil | apply Forall_cons | rewrite Z.leb_le; lia].

Lemma sort_facet_ok row : sort_facet row = Some (isort Z.leb row).
Proof.
  assert (G : (exists r, sort_facet row = Some r /\ StronglySorted (fun x y => (x <=? y)%Z = true) r) -> sort_facet row = Some (isort Z.leb row)).
  { intros (r & E & S). rewrite E. f_equal. symmetry. apply zsort_unique; [exact S|]. unfold sort_facet in E.
    destruct (length row =? 2); [now apply (cex_p 0 1)|].
    destruct (length row =? 3). { steps. transitivity l; [apply (cex_p 0 1 _ _ ltac:(discriminate) E0)|]. transitivity l0; [apply (cex_p 1 2 _ _ ltac:(discriminate) E1)|]. apply (cex_p 0 1 _ _ ltac:(discriminate) E). }
    destruct (length row =? 4).
    { steps. transitivity l; [apply (cex_p 0 1 _ _ ltac:(discriminate) E0)|]. transitivity l0; [apply (cex_p 2 3 _ _ ltac:(discriminate) E1)|].
      transitivity l1; [apply (cex_p 0 2 _ _ ltac:(discriminate) E2)|]. transitivity l2; [apply (cex_p 1 3 _ _ ltac:(discriminate) E3)|]. apply (cex_p 1 2 _ _ ltac:(discriminate) E). }
    injection E as <-. apply isort_perm. }
  destruct row as [|a [|b [|c [|d [|e t]]]]]; try reflexivity; apply G.
  - unfold sort_facet, cex. sorted_cases.
  - unfold sort_facet, cex. sorted_cases.
  - unfold sort_facet, cex. sorted_cases.
Qed.

(** ** Padding *)
Definition pad (w : nat) (r : list Z) : list Z := r ++ repeat (-1)%Z (w - length r).
Definition fkey (w : nat) (vs : list Z) : list Z := pad w (isort Z.leb vs).
Notation nonneg := (Forall (fun v : Z => (0 <= v)%Z)).

Lemma pad_length w r : length r <= w -> length (pad w r) = w.
Proof. intro H. unfold pad. rewrite app_length, repeat_length. lia. Qed.
Lemma fkey_length w vs : length vs <= w -> length (fkey w vs) = w.
Proof. intro H. apply pad_length. now rewrite isort_length. Qed.
Lemma pad_pad w W r : length r <= w -> w <= W -> pad W (pad w r) = pad W r.
Proof.
  intros H1 H2. unfold pad. rewrite <- app_assoc, <- repeat_app, app_length, repeat_length. f_equal. f_equal. lia.
Qed.
Lemma pad_inj w a b : nonneg a -> nonneg b -> length a <= w -> length b <= w -> pad w a = pad w b -> a = b.
Proof.
  revert a b. induction w as [|w IH]; intros a b Ha Hb La Lb E.
  - destruct a, b; cbn in *; [reflexivity|lia|lia|lia].
  - destruct Ha as [|x a Hx Ha], Hb as [|y b Hy Hb]; [reflexivity| | |].
    + unfold pad in E. cbn in E. injection E as E _. lia.
    + unfold pad in E. cbn in E. injection E as E _. lia.
    + unfold pad in E. cbn in E. injection E as -> E. f_equal. apply IH; auto; cbn in *; lia.
Qed.
Lemma nonneg_isort vs : nonneg vs -> nonneg (isort Z.leb vs).
Proof. intro H. rewrite Forall_forall in *. intros x Hx. apply H. now rewrite isort_in in Hx. Qed.
Lemma fkey_eq w a b : nonneg a -> nonneg b -> length a <= w -> length b <= w -> fkey w a = fkey w b <-> Permutation a b.
Proof.
  intros Ha Hb La Lb. split.
  - intro E. apply pad_inj in E; try (now apply nonneg_isort); try (now rewrite isort_length).
    transitivity (isort Z.leb a); [apply isort_perm|]. rewrite E. symmetry. apply isort_perm.
  - intro H. unfold fkey. now rewrite (zsort_perm_eq a b H).
Qed.

Lemma facet_row_ok w v fv vs : omap (nth_error v) fv = Some vs -> length vs <= w -> facet_row w v fv = Some (fkey w vs).
Proof.
  intros E H. unfold facet_row. rewrite E. cbn [obind]. destruct (Nat.leb_spec (length vs) w) as [_|]; [|lia].
  rewrite sort_facet_ok. cbn [obind]. reflexivity.
Qed.

Lemma zrow_eqb_eq a b : zrow_eqb a b = true <-> a = b.
Proof.
  revert b. induction a as [|x a IH]; destruct b as [|y b]; cbn; try (split; [discriminate|discriminate]); [tauto|].
  rewrite andb_true_iff, Z.eqb_eq, IH. split; [intros (-> & ->); reflexivity|intros E; injection E; auto].
Qed.
