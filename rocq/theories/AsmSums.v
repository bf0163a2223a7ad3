(** Finite sums in a commutative monoid, and loops that add to a state. *)
From Verif Require Import Base BaseProofs Algo MatrixCSR MatrixProofs Assemble AssembleSpec AsmBlocks.
Open Scope nat_scope.

Section Sums.
Context {T : Type}.
Variables (zero : T) (add : T -> T -> T).
Hypothesis add_0_l : forall a, add zero a = a.
Hypothesis add_comm : forall a b, add a b = add b a.
Hypothesis add_assoc : forall a b c, add a (add b c) = add (add a b) c.
Notation sum := (sum zero add).
Notation tsum := (tsum zero add).

Lemma add_0_r a : add a zero = a.
Proof. now rewrite add_comm, add_0_l. Qed.
Lemma add_swap a b c d : add (add a b) (add c d) = add (add a c) (add b d).
Proof. rewrite <- !add_assoc. f_equal. rewrite !add_assoc. f_equal. apply add_comm. Qed.
Lemma sum_cons a l : sum (a :: l) = add a (sum l).
Proof. reflexivity. Qed.
Lemma sum_app a b : sum (a ++ b) = add (sum a) (sum b).
Proof. induction a as [|x a IH]; cbn [app]; [now rewrite add_0_l|]. rewrite !sum_cons, IH, add_assoc. reflexivity. Qed.
Lemma sum_concat l : sum (concat l) = sum (map sum l).
Proof. induction l as [|x l IH]; [reflexivity|]. cbn [concat map]. now rewrite sum_app, IH, sum_cons. Qed.
Lemma sum_perm a b : Permutation a b -> sum a = sum b.
Proof. induction 1 as [|x l l' _ IH|x y l|l l' l'' _ IH1 _ IH2]; rewrite ?sum_cons; [reflexivity|now rewrite IH|now rewrite !add_assoc, (add_comm x y)|congruence]. Qed.
Lemma sum_ext {A} (f g : A -> T) l : (forall a, In a l -> f a = g a) -> sum (map f l) = sum (map g l).
Proof. intro H. f_equal. now apply map_ext_in. Qed.
Lemma sum_zero {A} (f : A -> T) l : (forall a, In a l -> f a = zero) -> sum (map f l) = zero.
Proof. induction l as [|a l IH]; intro H; [reflexivity|]. cbn [map]. rewrite sum_cons, (H a) by now left. rewrite add_0_l. apply IH. intros; apply H; now right. Qed.
Lemma sum_add {A} (f g : A -> T) l : sum (map (fun a => add (f a) (g a)) l) = add (sum (map f l)) (sum (map g l)).
Proof. induction l as [|a l IH]; [cbn; now rewrite add_0_l|]. cbn [map]. rewrite !sum_cons, IH. apply add_swap. Qed.
Lemma sum_sum {A B} (f : A -> B -> T) la lb : sum (map (fun a => sum (map (f a) lb)) la) = sum (map (fun b => sum (map (fun a => f a b) la)) lb).
Proof.
  induction la as [|a la IH]; cbn [map].
  - symmetry. now apply sum_zero.
  - rewrite sum_cons, IH, <- sum_add. reflexivity.
Qed.
Lemma sum_flat {A B} (f : B -> T) (g : A -> list B) l : sum (map (fun a => sum (map f (g a))) l) = sum (map f (concat (map g l))).
Proof. rewrite concat_map, sum_concat, !map_map. reflexivity. Qed.

Lemma tsum_ext n f g : (forall a, a < n -> f a = g a) -> tsum n f = tsum n g.
Proof. intro H. apply sum_ext. intros a Ha. apply in_seq in Ha. apply H. lia. Qed.
Lemma tsum_zero n f : (forall a, a < n -> f a = zero) -> tsum n f = zero.
Proof. intro H. apply sum_zero. intros a Ha. apply in_seq in Ha. apply H. lia. Qed.
Lemma tsum_0 f : tsum 0 f = zero.
Proof. reflexivity. Qed.
Lemma tsum_S n f : tsum (S n) f = add (tsum n f) (f n).
Proof. unfold AssembleSpec.tsum. rewrite seq_S, map_app, sum_app. cbn [map Nat.add]. rewrite sum_cons. cbn. now rewrite add_0_r. Qed.
Lemma tsum_add n m f : tsum (n + m) f = add (tsum n f) (tsum m (fun b => f (n + b))).
Proof. induction m as [|m IH]; [rewrite Nat.add_0_r, tsum_0; now rewrite add_0_r|]. rewrite Nat.add_succ_r, !tsum_S, IH, add_assoc. reflexivity. Qed.
Lemma tsum_mul bs n f : tsum (bs * n) f = tsum n (fun i => tsum bs (fun k => f (bs * i + k))).
Proof. induction n as [|n IH]; [rewrite Nat.mul_0_r; reflexivity|]. rewrite Nat.mul_succ_r, tsum_add, IH, tsum_S. reflexivity. Qed.
Lemma tsum_swap n m f : tsum n (fun a => tsum m (fun b => f a b)) = tsum m (fun b => tsum n (fun a => f a b)).
Proof. apply sum_sum. Qed.
Lemma tsum_plus n f g : tsum n (fun a => add (f a) (g a)) = add (tsum n f) (tsum n g).
Proof. apply sum_add. Qed.
(** One term only. *)
Lemma tsum_one n f i : i < n -> (forall a, a < n -> a <> i -> f a = zero) -> tsum n f = f i.
Proof.
  intros Hi H. induction n as [|n IH]; [lia|]. rewrite tsum_S. destruct (Nat.eq_dec i n) as [->|N].
  - rewrite tsum_zero; [apply add_0_l|]. intros a Ha. apply H; lia.
  - rewrite IH by (try lia; intros; apply H; lia). rewrite (H n) by lia. apply add_0_r.
Qed.
Lemma sum_enum {A} (l : list A) (d : A) (f : nat -> A -> T) : sum (map (fun p => f (fst p) (snd p)) (enum l)) = tsum (length l) (fun i => f i (nth i l d)).
Proof. unfold AssembleSpec.tsum. rewrite (map_enum (fun p => f (fst p) (snd p)) l d). reflexivity. Qed.
Lemma target_block bs dofs i k : k < bs -> target bs dofs (bs * i + k) = bs * nth i dofs 0 + k.
Proof. intro H. unfold target. rewrite (Nat.mul_comm bs i), Nat.div_add_l, Nat.div_small, Nat.add_0_r by lia. f_equal. rewrite (Nat.add_comm (i * bs)), Nat.mod_add, Nat.mod_small by lia. reflexivity. Qed.
Lemma fold_add l y : fold_left add l y = add y (sum l).
Proof. revert y. induction l as [|a l IH]; intro y; cbn [fold_left]; [cbn; now rewrite add_0_r|]. rewrite IH, sum_cons, add_assoc. reflexivity. Qed.
End Sums.

Section Adds.
Context {T St Q : Type}.
Variables (zero : T) (add : T -> T -> T).
Hypothesis add_0_l : forall a, add zero a = a.
Hypothesis add_comm : forall a b, add a b = add b a.
Hypothesis add_assoc : forall a b c, add a (add b c) = add (add a b) c.
Variables (Inv : St -> Prop) (view : St -> Q -> T) (D : Q -> Prop).

(** [F] succeeds and adds [h q] to what is seen at [q]. *)
Definition adds (F : St -> option St) (h : Q -> T) : Prop :=
  forall s, Inv s -> exists s', F s = Some s' /\ Inv s' /\ forall q, D q -> view s' q = add (view s q) (h q).

Lemma adds_id : adds Some (fun _ => zero).
Proof. intros s Hs. exists s. split; [reflexivity|]. split; [exact Hs|]. intros q _. symmetry. now apply add_0_r. Qed.
Lemma adds_seq F G h k : adds F h -> adds G k -> adds (fun s => s' <- F s ;; G s') (fun q => add (h q) (k q)).
Proof.
  intros HF HG s Hs. destruct (HF s Hs) as (s1 & E1 & I1 & V1). destruct (HG s1 I1) as (s2 & E2 & I2 & V2). exists s2. rewrite E1. cbn [obind]. split; [exact E2|]. split; [exact I2|].
  intros q Hq. rewrite V2, V1, add_assoc by exact Hq. reflexivity.
Qed.
Lemma adds_eq F G h k : adds F h -> (forall s, Inv s -> G s = F s) -> (forall q, D q -> k q = h q) -> adds G k.
Proof. intros HF E Hk s Hs. destruct (HF s Hs) as (s1 & E1 & I1 & V1). exists s1. rewrite (E s Hs). split; [exact E1|]. split; [exact I1|]. intros q Hq. rewrite V1, Hk by exact Hq. reflexivity. Qed.
Lemma adds_ofold {A} (f : St -> A -> option St) (h : A -> Q -> T) l : (forall a, In a l -> adds (fun s => f s a) (h a)) -> adds (ofold f l) (fun q => sum zero add (map (fun a => h a q) l)).
Proof.
  induction l as [|a l IH]; intro H; [exact adds_id|]. cbn [ofold map]. intros s Hs. apply (adds_seq (fun s => f s a) (ofold f l) (h a) (fun q => sum zero add (map (fun b => h b q) l))); [apply H; now left|apply IH; intros; apply H; now right|exact Hs].
Qed.
End Adds.

(** Adding to an array of [n] values. *)
Section Vec.
Context {T : Type}.
Variables (zero : T) (add : T -> T -> T).
Hypothesis add_0_l : forall a, add zero a = a.
Hypothesis add_comm : forall a b, add a b = add b a.
Hypothesis add_assoc : forall a b c, add a (add b c) = add (add a b) c.
Variable n : nat.
Definition vadds := adds add (fun b : list T => length b = n) (fun b q => nth q b zero) (fun q => q < n).
Lemma vadds_op (op : T -> T -> T) p v w : (forall y, op y v = add y w) -> p < n -> vadds (fun b => apply_op op b p v) (fun q => if p =? q then w else zero).
Proof.
  intros Hop Hp b Hb. unfold apply_op. destruct (nth_error_lt b p) as (y & Ey); [lia|]. rewrite Ey. cbn [obind]. destruct (upd_some b p (op y v)) as (b' & E); [lia|]. exists b'. split; [exact E|]. split; [rewrite (upd_length _ _ _ _ E); exact Hb|].
  intros q Hq. destruct (Nat.eqb_spec p q) as [->|N].
  - rewrite (nth_error_nth _ _ zero (upd_nth_eq _ _ _ _ E)), (nth_error_nth _ _ zero Ey). apply Hop.
  - rewrite (add_0_r _ _ add_0_l add_comm). pose proof (upd_nth_neq _ _ _ _ _ E N) as En. destruct (nth_error_lt b q) as (z & Ez); [lia|]. rewrite Ez in En. now rewrite (nth_error_nth _ _ zero En), (nth_error_nth _ _ zero Ez).
Qed.
End Vec.
