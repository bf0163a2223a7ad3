From Verif Require Import Base BaseProofs Algo.

Section Isort.
Variables (A : Type) (leb : A -> A -> bool).
Hypothesis leb_total : forall x y, leb x y = true \/ leb y x = true.
Hypothesis leb_trans : forall x y z, leb x y = true -> leb y z = true -> leb x z = true.

Notation le := (fun x y => leb x y = true).

Lemma insert_perm x l : Permutation (x :: l) (insert leb x l).
Proof.
  induction l as [|y t IH]; cbn; [apply Permutation_refl|]. destruct (leb x y); [apply Permutation_refl|].
  rewrite perm_swap. now apply perm_skip.
Qed.
Lemma isort_perm l : Permutation l (isort leb l).
Proof. induction l as [|x t IH]; cbn; [constructor|]. rewrite <- insert_perm. now apply perm_skip. Qed.

Lemma insert_sorted x l : StronglySorted le l -> StronglySorted le (insert leb x l).
Proof.
  induction 1 as [|y t Ht IH Hy]; cbn; [repeat constructor|]. destruct (leb x y) eqn:E.
  - constructor; [constructor; assumption|]. constructor; [exact E|].
    eapply Forall_impl; [|exact Hy]. cbn. intros z Hz. eapply leb_trans; eauto.
  - constructor; [exact IH|]. rewrite Forall_forall in *. intros z Hz.
    apply Permutation_in with (l' := x :: t) in Hz; [|apply Permutation_sym, insert_perm].
    destruct Hz as [<-|Hz]; [|auto]. destruct (leb_total x y); congruence.
Qed.
Lemma isort_sorted l : StronglySorted le (isort leb l).
Proof. induction l as [|x t IH]; cbn; [constructor|now apply insert_sorted]. Qed.

Hypothesis leb_antisym : forall x y, leb x y = true -> leb y x = true -> x = y.

Lemma sorted_perm_eq l : forall l', StronglySorted le l -> StronglySorted le l' -> Permutation l l' -> l = l'.
Proof.
  induction l as [|x t IH]; intros l' Hs Hs' Hp.
  - apply Permutation_nil in Hp. now subst.
  - destruct l' as [|y t']; [symmetry in Hp; now apply Permutation_nil in Hp|].
    inversion Hs as [|? ? Ht Hx]; inversion Hs' as [|? ? Ht' Hy]; subst.
    rewrite Forall_forall in Hx, Hy.
    assert (x = y) as ->.
    { assert (Ix : In x (y :: t')) by (eapply Permutation_in; [exact Hp|now left]).
      assert (Iy : In y (x :: t)) by (eapply Permutation_in; [symmetry; exact Hp|now left]).
      destruct Ix as [->|Ix]; [reflexivity|]. destruct Iy as [->|Iy]; [reflexivity|].
      apply leb_antisym; auto. }
    f_equal. apply IH; auto. now apply Permutation_cons_inv in Hp.
Qed.

Lemma isort_unique l l' : StronglySorted le l' -> Permutation l l' -> isort leb l = l'.
Proof.
  intros Hs Hp. apply sorted_perm_eq; [apply isort_sorted|exact Hs|]. rewrite <- isort_perm. exact Hp.
Qed.
Lemma isort_id l : StronglySorted le l -> isort leb l = l.
Proof. intro H. apply isort_unique; auto. Qed.
Lemma isort_perm_eq l l' : Permutation l l' -> isort leb l = isort leb l'.
Proof. intro H. apply isort_unique; [apply isort_sorted|]. rewrite H. apply isort_perm. Qed.
End Isort.

Lemma isort_length {A} (leb : A -> A -> bool) l : length (isort leb l) = length l.
Proof. symmetry. apply Permutation_length, isort_perm. Qed.
Lemma isort_in {A} (leb : A -> A -> bool) l x : In x (isort leb l) <-> In x l.
Proof. split; apply Permutation_in; [symmetry|]; apply isort_perm. Qed.

(** Natural numbers. *)
Lemma nleb_total x y : (x <=? y) = true \/ (y <=? x) = true.
Proof. rewrite !Nat.leb_le. lia. Qed.
Lemma nleb_trans x y z : (x <=? y) = true -> (y <=? z) = true -> (x <=? z) = true.
Proof. rewrite !Nat.leb_le. lia. Qed.
Lemma nleb_antisym x y : (x <=? y) = true -> (y <=? x) = true -> x = y.
Proof. rewrite !Nat.leb_le. lia. Qed.
Lemma SS_leb l : StronglySorted (fun x y => (x <=? y) = true) l <-> StronglySorted le l.
Proof.
  split; intro H; (eapply SS_impl_in; [|exact H]); intros x y _ _; cbn; apply Nat.leb_le.
Qed.
Lemma nsort_sorted l : StronglySorted le (isort Nat.leb l).
Proof. apply SS_leb, isort_sorted; [apply nleb_total|apply nleb_trans]. Qed.
Lemma nsort_unique l l' : StronglySorted le l' -> Permutation l l' -> isort Nat.leb l = l'.
Proof.
  intros H. apply isort_unique; [apply nleb_total|apply nleb_trans|apply nleb_antisym|now apply SS_leb].
Qed.
Lemma nsort_perm_eq l l' : Permutation l l' -> isort Nat.leb l = isort Nat.leb l'.
Proof. apply isort_perm_eq; [apply nleb_total|apply nleb_trans|apply nleb_antisym]. Qed.

(** Pairs. *)
Lemma pair_leb_iff a b : pair_leb a b = true <-> fst a < fst b \/ fst a = fst b /\ snd a <= snd b.
Proof. unfold pair_leb. rewrite orb_true_iff, andb_true_iff, Nat.ltb_lt, Nat.eqb_eq, Nat.leb_le. reflexivity. Qed.
Lemma pleb_total x y : pair_leb x y = true \/ pair_leb y x = true.
Proof. rewrite !pair_leb_iff. lia. Qed.
Lemma pleb_trans x y z : pair_leb x y = true -> pair_leb y z = true -> pair_leb x z = true.
Proof. rewrite !pair_leb_iff. lia. Qed.
Lemma pleb_antisym x y : pair_leb x y = true -> pair_leb y x = true -> x = y.
Proof. rewrite !pair_leb_iff. destruct x, y. cbn. intros. f_equal; lia. Qed.
Lemma psort_sorted l : StronglySorted (fun x y => pair_leb x y = true) (isort pair_leb l).
Proof. apply isort_sorted; [apply pleb_total|apply pleb_trans]. Qed.
Lemma psort_unique l l' : StronglySorted (fun x y => pair_leb x y = true) l' -> Permutation l l' -> isort pair_leb l = l'.
Proof. apply isort_unique; [apply pleb_total|apply pleb_trans|apply pleb_antisym]. Qed.
Lemma psort_perm_eq l l' : Permutation l l' -> isort pair_leb l = isort pair_leb l'.
Proof. apply isort_perm_eq; [apply pleb_total|apply pleb_trans|apply pleb_antisym]. Qed.

(** ** sort + unique *)
Lemma unique_from_in {A} (e : A -> A -> bool) (He : forall a b, e a b = true <-> a = b) l :
  forall x y, In y (unique_from e x l) <-> y = x \/ In y l.
Proof.
  induction l as [|z t IH]; intros x y; cbn; [intuition|].
  destruct (e x z) eqn:E.
  - apply He in E. subst z. rewrite IH. intuition.
  - cbn. rewrite IH. intuition.
Qed.
Lemma unique_in {A} (e : A -> A -> bool) (He : forall a b, e a b = true <-> a = b) l y :
  In y (unique e l) <-> In y l.
Proof. destruct l as [|x t]; [reflexivity|]. cbn [unique]. rewrite unique_from_in by exact He. cbn. intuition. Qed.

Lemma unique_from_strict {A} (e : A -> A -> bool) (R : A -> A -> Prop) (He : forall a b, e a b = true <-> a = b) l :
  forall x, StronglySorted R (x :: l) ->
    StronglySorted (fun a b => R a b /\ a <> b) (unique_from e x l)
    \/ ~ (forall a b, R a b -> R b a -> a = b).
Proof.
  induction l as [|z t IH]; intros x H; cbn; [left; repeat constructor|].
  inversion H as [|? ? Ht Hx]; subst. inversion Ht as [|? ? Ht' Hz]; subst.
  inversion Hx as [|? ? Rxz Hx']; subst.
  destruct (e x z) eqn:E; [apply IH; now constructor|].
  destruct (IH z Ht) as [IHl|IHr]; [|now right].
  destruct (in_dec (fun a b => ltac:(destruct (e a b) eqn:Eab; [left; now apply He|right; intro; apply He in H0; congruence])) x t)
    as [Hin|Hout].
  - right. intro Has. assert (x = z); [|apply He in H0; congruence].
    apply Has; [exact Rxz|]. rewrite Forall_forall in Hz. now apply Hz.
  - left. constructor; [exact IHl|]. rewrite Forall_forall. intros y Hy.
    apply unique_from_in in Hy; [|exact He]. rewrite Forall_forall in Hx'. destruct Hy as [->|Hy].
    + split; [exact Rxz|]. intros ->. assert (e z z = true) by now apply He. congruence.
    + split; [auto|]. intros ->. contradiction.
Qed.

Lemma neqb_iff a b : (a =? b) = true <-> a = b. Proof. apply Nat.eqb_eq. Qed.
Lemma peqb_iff a b : pair_eqb a b = true <-> a = b.
Proof.
  unfold pair_eqb. rewrite andb_true_iff, !Nat.eqb_eq. destruct a, b; cbn. split; [intros []; now subst|].
  intro H; injection H; auto.
Qed.

Lemma sort_uniq_in l x : In x (sort_uniq l) <-> In x l.
Proof. unfold sort_uniq. rewrite unique_in by apply neqb_iff. apply isort_in. Qed.

Lemma SS_lt_of l : StronglySorted (fun a b => a <= b /\ a <> b) l -> StronglySorted lt l.
Proof. intro H. eapply SS_impl_in; [|exact H]. cbn. intros. lia. Qed.

Lemma sort_uniq_sorted l : StronglySorted lt (sort_uniq l).
Proof.
  unfold sort_uniq. pose proof (nsort_sorted l) as H. destruct (isort Nat.leb l) as [|x t]; [constructor|].
  cbn [unique]. destruct (unique_from_strict Nat.eqb le neqb_iff t x H) as [G|G].
  - now apply SS_lt_of.
  - exfalso. apply G. intros; lia.
Qed.

Lemma SS_lt_NoDup l : StronglySorted lt l -> NoDup l.
Proof.
  induction 1 as [|x t Ht IH Hx]; constructor; [|exact IH]. intro H. rewrite Forall_forall in Hx.
  specialize (Hx x H). lia.
Qed.
Lemma sort_uniq_NoDup l : NoDup (sort_uniq l).
Proof. apply SS_lt_NoDup, sort_uniq_sorted. Qed.

(** Strictly sorted lists with the same elements are equal. *)
Lemma SS_lt_eq l : forall l', StronglySorted lt l -> StronglySorted lt l' ->
  (forall x, In x l <-> In x l') -> l = l'.
Proof.
  intros l' H H' E. apply (sorted_perm_eq _ Nat.leb nleb_antisym).
  - apply SS_leb. eapply SS_impl_in; [|exact H]. cbn; intros; lia.
  - apply SS_leb. eapply SS_impl_in; [|exact H']. cbn; intros; lia.
  - apply NoDup_Permutation; auto using SS_lt_NoDup.
Qed.
Lemma SS_lt_seq a n : StronglySorted lt (seq a n).
Proof.
  revert a; induction n as [|n IH]; intro a; cbn; constructor; auto.
  rewrite Forall_forall. intros x Hx. apply in_seq in Hx. lia.
Qed.
Lemma sort_uniq_filter P l : (forall x, In x l -> x < P) -> sort_uniq l = filter (fun x => mem x l) (seq 0 P).
Proof.
  intro H. apply SS_lt_eq; [apply sort_uniq_sorted|apply SS_filter, SS_lt_seq|].
  intro x. rewrite sort_uniq_in, filter_In, in_seq. unfold mem. rewrite existsb_exists. split.
  - intro Hx. split; [specialize (H x Hx); lia|]. exists x. split; [exact Hx|apply Nat.eqb_refl].
  - intros (_ & y & Hy & E). apply Nat.eqb_eq in E. now subst.
Qed.

Lemma mem_iff x l : mem x l = true <-> In x l.
Proof.
  unfold mem. rewrite existsb_exists. split.
  - intros (y & Hy & E). apply Nat.eqb_eq in E. now subst.
  - intro H. exists x. split; [exact H|apply Nat.eqb_refl].
Qed.

Lemma sort_uniq_pairs_in l x : In x (sort_uniq_pairs l) <-> In x l.
Proof. unfold sort_uniq_pairs. rewrite unique_in by apply peqb_iff. apply isort_in. Qed.
Definition pair_lt (a b : nat * nat) : Prop := fst a < fst b \/ fst a = fst b /\ snd a < snd b.
Lemma sort_uniq_pairs_sorted l : StronglySorted pair_lt (sort_uniq_pairs l).
Proof.
  unfold sort_uniq_pairs. pose proof (psort_sorted l) as H. destruct (isort pair_leb l) as [|x t]; [constructor|].
  cbn [unique].
  destruct (unique_from_strict pair_eqb (fun x y => pair_leb x y = true) peqb_iff t x H) as [G|G].
  - eapply SS_impl_in; [|exact G]. cbn. intros a b _ _ (Hab & Hne). apply pair_leb_iff in Hab. unfold pair_lt.
    destruct a as [a1 a2], b as [b1 b2]. cbn in *. destruct Hab as [|(-> & Hle)]; [auto|].
    right. split; [reflexivity|]. assert (a2 <> b2) by (intros ->; apply Hne; reflexivity). lia.
  - exfalso. apply G. apply pleb_antisym.
Qed.

(** ** prefix_len, lower_bound *)
Lemma prefix_len_le {A} (p : A -> bool) l : prefix_len p l <= length l.
Proof. induction l as [|x t IH]; cbn; [lia|]. destruct (p x); lia. Qed.
Lemma prefix_len_app {A} (p : A -> bool) a b : (forall x, In x a -> p x = true) ->
  prefix_len p (a ++ b) = length a + prefix_len p b.
Proof.
  induction a as [|x t IH]; intro H; [reflexivity|]. cbn. rewrite (H x (or_introl eq_refl)), IH; [lia|].
  intros; apply H; now right.
Qed.
Lemma prefix_len_stop {A} (p : A -> bool) x l : p x = false -> prefix_len p (x :: l) = 0.
Proof. cbn. now intros ->. Qed.

Lemma lower_bound_nth l x i : StronglySorted lt l -> nth_error l i = Some x -> lower_bound l x = i.
Proof.
  intros Hs Hi. apply nth_error_split in Hi as (a & b & -> & <-).
  unfold lower_bound, lower_bound_by. rewrite prefix_len_app.
  - rewrite prefix_len_stop by apply Nat.ltb_irrefl. lia.
  - intros y Hy. apply Nat.ltb_lt. clear - Hs Hy. induction a as [|z t IH]; [destruct Hy|].
    cbn in Hs. inversion Hs as [|? ? Ht Hz]; subst. destruct Hy as [->|Hy]; [|now apply IH].
    rewrite Forall_forall in Hz. apply Hz. apply in_app_iff. right. now left.
Qed.

Lemma index_in_some x l i : index_in x l = Some i -> nth_error l i = Some x.
Proof.
  revert i; induction l as [|y t IH]; intros i; cbn; [discriminate|].
  destruct (Nat.eqb_spec x y) as [->|]; [intro H; injection H as <-; reflexivity|].
  destruct (index_in x t) as [j|]; cbn; [|discriminate]. intro H; injection H as <-. cbn. now apply IH.
Qed.
Lemma index_in_in x l : In x l -> exists i, index_in x l = Some i.
Proof.
  induction l as [|y t IH]; intros H; [destruct H|]. cbn. destruct (Nat.eqb_spec x y); [eauto|].
  destruct H as [->|H]; [contradiction|]. destruct (IH H) as (i & ->). cbn. eauto.
Qed.
Lemma index_in_none x l : ~ In x l -> index_in x l = None.
Proof.
  intro H. destruct (index_in x l) eqn:E; [|reflexivity]. apply index_in_some in E.
  apply nth_error_In in E. contradiction.
Qed.
Lemma index_in_nth x l i : NoDup l -> nth_error l i = Some x -> index_in x l = Some i.
Proof.
  intros Hn Hi. destruct (index_in_in x l) as (j & Ej); [eapply nth_error_In; eauto|].
  rewrite Ej. f_equal. apply index_in_some in Ej. eapply NoDup_nth_error_inj; eauto.
Qed.

Lemma find_sorted_spec l x : StronglySorted lt l -> find_sorted l x = index_in x l.
Proof.
  intro Hs. unfold find_sorted. destruct (index_in x l) as [i|] eqn:E.
  - apply index_in_some in E. rewrite (lower_bound_nth l x i) by assumption. rewrite E, Nat.eqb_refl. reflexivity.
  - destruct (nth_error l (lower_bound l x)) as [y|] eqn:En; [|reflexivity].
    destruct (Nat.eqb_spec y x) as [->|]; [|reflexivity].
    destruct (index_in_in x l) as (j & Ej); [eapply nth_error_In; eauto|congruence].
Qed.

(** ** push_back to buckets *)
Lemma push_all_spec {A} n (kvs : list (nat * A)) : (forall kv, In kv kvs -> fst kv < n) ->
  push_all n kvs = Some (map (fun k => vals k kvs) (seq 0 n)).
Proof.
  intro H. unfold push_all.
  assert (G : forall l (v : list (list A)), length v = n -> (forall kv, In kv l -> fst kv < n) ->
    exists v', ofold (fun v kv => push_back v (fst kv) (snd kv)) l v = Some v' /\ length v' = n /\
      forall k b, nth_error v k = Some b -> nth_error v' k = Some (b ++ vals k l)).
  { induction l as [|[k x] l IH]; intros v Hv Hl.
    - exists v. cbn. repeat split; auto. intros k b Hb. now rewrite app_nil_r.
    - cbn [ofold fst snd]. unfold push_back.
      destruct (modify_some v k (fun b => b ++ [x])) as (v1 & E1).
      { rewrite Hv. apply (Hl (k, x)). now left. }
      rewrite E1. cbn [obind]. destruct (IH v1) as (v' & E2 & L2 & N2).
      { rewrite (modify_length _ _ _ _ E1). exact Hv. } { intros; apply Hl; now right. }
      exists v'. unfold push_back in E2. rewrite E2. repeat split; auto.
      intros j b Hb. pose proof (modify_nth _ _ _ j _ E1) as M. rewrite Hb in M.
      unfold vals. cbn [filter fst]. destruct (Nat.eqb_spec k j) as [->|Ne].
      + rewrite ?Nat.eqb_refl in M. cbn in M. rewrite (N2 _ _ M). cbn [map snd]. rewrite <- app_assoc. reflexivity.
      + destruct (Nat.eqb_spec j k); [congruence|]. apply N2. exact M. }
  destruct (G kvs (repeat [] n) (repeat_length _ _) H) as (v' & E & L & N). rewrite E. f_equal.
  apply nth_error_ext. intro i. destruct (Nat.lt_ge_cases i n) as [Hi|Hi].
  - rewrite (N i []) by now apply nth_error_repeat.
    rewrite nth_error_map_some, nth_error_seq by exact Hi. reflexivity.
  - transitivity (@None (list A)); [|symmetry]; apply nth_error_None; rewrite ?map_length, ?seq_length; lia.
Qed.
