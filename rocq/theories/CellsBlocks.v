(** Proofs for Cells: lists of consecutive numbers, and permuted blocks of them. *)
From Coq Require Import Permutation.
From Verif Require Import Base BaseProofs Algo AlgoProofs CellTypes Cells CellsPop CellsTri.
Open Scope Z_scope.

Lemma w16_id x : 0 <= x < 65536 -> w16 x = x.
Proof. intros H. unfold w16. now apply Z.mod_small. Qed.
Lemma range_in n x : In x (range n) <-> 0 <= x < n.
Proof.
  unfold range. rewrite in_map_iff. split.
  - intros (k & E & H). apply in_seq in H. lia.
  - intros H. exists (Z.to_nat x). split; [lia|]. apply in_seq. lia.
Qed.
Lemma range_len n : 0 <= n -> zlen (range n) = n.
Proof. intros H. unfold range. rewrite map_length, seq_length. lia. Qed.
Lemma range_nodup n : NoDup (range n).
Proof.
  unfold range. apply FinFun.Injective_map_NoDup; [intros a b E; lia|apply seq_NoDup].
Qed.
Lemma range_S n : 0 <= n -> range (n + 1) = range n ++ [n].
Proof.
  intros H. unfold range. replace (Z.to_nat (n + 1)) with (Z.to_nat n + 1)%nat by lia.
  rewrite seq_app, map_app. cbn [seq map]. do 2 f_equal. lia.
Qed.

(** The numbers from [a] to [a + n - 1] *)
Definition ival (a n : Z) : list Z := map (fun k => a + k) (range n).
Lemma ival_in a n x : In x (ival a n) <-> a <= x < a + n.
Proof.
  unfold ival. rewrite in_map_iff. split.
  - intros (k & E & H). apply range_in in H. lia.
  - intros H. exists (x - a). split; [lia|]. apply range_in. lia.
Qed.
Lemma ival_nodup a n : NoDup (ival a n).
Proof. apply FinFun.Injective_map_NoDup; [intros x y E; lia|apply range_nodup]. Qed.
Lemma ival_len a n : 0 <= n -> zlen (ival a n) = n.
Proof. intros H. unfold ival. rewrite map_length. now apply range_len. Qed.
Lemma ival_app a n m : 0 <= n -> 0 <= m -> ival a (n + m) = ival a n ++ ival (a + n) m.
Proof.
  intros Hn Hm. unfold ival, range. rewrite Z2Nat.inj_add by lia. rewrite seq_app, !map_app. f_equal.
  cbn [Nat.add]. rewrite <- (Nat.add_0_r (Z.to_nat n)) at 1.
  generalize (Z.to_nat m), 0%nat. intros k. induction k as [|k IH]; intros b; [reflexivity|].
  cbn [seq map]. rewrite plus_n_Sm, IH. f_equal. lia.
Qed.
Lemma ival_shift b a n : map (fun d => b + d) (ival a n) = ival (b + a) n.
Proof. unfold ival. rewrite map_map. apply map_ext. intros k. lia. Qed.
Lemma w16_ext f n : (forall k, 0 <= k < n -> 0 <= f k < 65536) ->
  map (fun k => w16 (f k)) (range n) = map f (range n).
Proof. intros H. apply map_ext_in. intros k Hk. apply w16_id, H. now apply range_in. Qed.
Lemma w16_block a n : 0 <= a -> a + n <= 65536 -> map (fun k => w16 (a + k)) (range n) = ival a n.
Proof. intros Ha Hn. apply w16_ext. lia. Qed.
Lemma iota_ival a n : 0 <= a -> a + n <= 65536 -> iota a n = ival a n.
Proof. apply w16_block. Qed.
Lemma down_block c n : Permutation (map (fun k => c - k) (range n)) (ival (c - n + 1) n).
Proof.
  apply NoDup_Permutation.
  - apply FinFun.Injective_map_NoDup; [intros x y E; lia|apply range_nodup].
  - apply ival_nodup.
  - intros x. rewrite ival_in, in_map_iff. split.
    + intros (k & E & H). apply range_in in H. lia.
    + intros H. exists (c - x). split; [lia|]. apply range_in. lia.
Qed.

(** [k] blocks of [b] numbers *)
Lemma blocks_nat a b k : 0 <= b -> flat_map (fun e => ival (a + b * e) b) (range (Z.of_nat k)) = ival a (b * Z.of_nat k).
Proof.
  intros Hb. induction k as [|k IH].
  - now rewrite Z.mul_0_r.
  - replace (Z.of_nat (S k)) with (Z.of_nat k + 1) by lia. rewrite range_S by lia.
    rewrite flat_map_app, IH. cbn [flat_map]. rewrite app_nil_r, Z.mul_add_distr_l, Z.mul_1_r.
    symmetry. apply ival_app; nia.
Qed.
Lemma blocks l k a b : 0 <= b -> Permutation l (range (Z.of_nat k)) ->
  Permutation (flat_map (fun e => ival (a + b * e) b) l) (ival a (b * Z.of_nat k)).
Proof. intros Hb P. rewrite <- blocks_nat by exact Hb. now apply Permutation_flat_map. Qed.
Lemma flat_map_perm {A B} (f g : A -> list B) l : (forall x, In x l -> Permutation (f x) (g x)) ->
  Permutation (flat_map f l) (flat_map g l).
Proof.
  induction l as [|x l IH]; intros H; [reflexivity|]. cbn [flat_map].
  apply Permutation_app; [apply H; now left|apply IH; intros y Hy; apply H; now right].
Qed.
Lemma flat_map_eq {A B} (f g : A -> list B) l : (forall x, In x l -> f x = g x) -> flat_map f l = flat_map g l.
Proof.
  induction l as [|x l IH]; intros H; [reflexivity|]. cbn [flat_map].
  f_equal; [apply H; now left|apply IH; intros y Hy; apply H; now right].
Qed.

(** * Triangular arrays *)
(** The start of row [j] of an array with rows of [n], [n - 1], ... entries *)
Definition off (n j : Z) : Z := j * (2 * n - j + 1) / 2.
Lemma off_twice n j : 2 * off n j = j * (2 * n - j + 1).
Proof.
  unfold off. assert (E : (j * (2 * n - j + 1)) mod 2 = 0).
  { destruct (Z.Even_or_Odd j) as [[k Hk]|[k Hk]]; rewrite Hk.
    - replace (2 * k * (2 * n - 2 * k + 1)) with (k * (2 * n - 2 * k + 1) * 2) by ring. apply Z_mod_mult.
    - replace ((2 * k + 1) * (2 * n - (2 * k + 1) + 1)) with ((2 * k + 1) * (n - k) * 2) by ring. apply Z_mod_mult. }
  pose proof (Z.div_mod (j * (2 * n - j + 1)) 2 ltac:(lia)). lia.
Qed.
Lemma rows n k : Z.of_nat k <= n ->
  flat_map (fun j => ival (off n j) (n - j)) (range (Z.of_nat k)) = ival 0 (off n (Z.of_nat k)).
Proof.
  intros Hk. induction k as [|k IH]; [reflexivity|].
  replace (Z.of_nat (S k)) with (Z.of_nat k + 1) by lia. rewrite range_S by lia.
  rewrite flat_map_app, IH by lia. cbn [flat_map]. rewrite app_nil_r.
  pose proof (off_twice n (Z.of_nat k)). pose proof (off_twice n (Z.of_nat k + 1)).
  replace (off n (Z.of_nat k + 1)) with (off n (Z.of_nat k) + (n - Z.of_nat k)) by lia.
  symmetry. apply ival_app; nia.
Qed.

Lemma all_rows n : 0 <= n -> flat_map (fun j => ival (off n j) (n - j)) (range n) = ival 0 (off n n).
Proof. intros H. pose proof (rows n (Z.to_nat n) ltac:(lia)) as E. now rewrite Z2Nat.id in E by lia. Qed.

Lemma flat_map_swap {A B C} (f : A -> B -> list C) l1 l2 :
  Permutation (flat_map (fun a => flat_map (f a) l2) l1) (flat_map (fun b => flat_map (fun a => f a b) l1) l2).
Proof.
  induction l1 as [|a l1 IH]; cbn [flat_map].
  - induction l2 as [|b l2 IH2]; [reflexivity|exact IH2].
  - rewrite IH. clear IH. induction l2 as [|b l2 IH]; [reflexivity|].
    cbn [flat_map]. rewrite <- IH, <- !app_assoc. apply Permutation_app_head.
    rewrite !app_assoc. apply Permutation_app_tail, Permutation_app_comm.
Qed.
Lemma flat_map_none {A B} (f : A -> list B) l : (forall x, In x l -> f x = []) -> flat_map f l = [].
Proof.
  induction l as [|x l IH]; intros H; [reflexivity|]. cbn [flat_map].
  rewrite H by now left. apply IH. intros y Hy. apply H. now right.
Qed.
Lemma flat_map_single {A B} (f : A -> B) l : flat_map (fun x => [f x]) l = map f l.
Proof. induction l as [|x l IH]; [reflexivity|]. cbn [flat_map map]. now rewrite IH. Qed.
Lemma range_split n k : 0 <= k <= n -> range n = range k ++ ival k (n - k).
Proof.
  intros H. replace (range n) with (ival 0 n) by (unfold ival; rewrite map_ext with (g := fun x => x) by (intros; lia); apply map_id).
  replace n with (k + (n - k)) at 1 by lia. rewrite ival_app by lia. f_equal.
  unfold ival. rewrite map_ext with (g := fun x => x) by (intros; lia). apply map_id.
Qed.
(** The entries below a bound, and from a bound on *)
Lemma below {B} (f : Z -> B) n k : 0 <= k <= n ->
  flat_map (fun i => if i <? k then [f i] else []) (range n) = map f (range k).
Proof.
  intros H. rewrite (range_split n k H), flat_map_app.
  rewrite flat_map_eq with (g := fun i => [f i]).
  2:{ intros x Hx. apply range_in in Hx. destruct (Z.ltb_spec x k); [reflexivity|lia]. }
  rewrite flat_map_single, flat_map_none; [apply app_nil_r|].
  intros x Hx. apply ival_in in Hx. destruct (Z.ltb_spec x k); [lia|reflexivity].
Qed.
Lemma above {B} (f : Z -> B) n k : 0 <= k <= n ->
  flat_map (fun i => if k <=? i then [f i] else []) (range n) = map f (ival k (n - k)).
Proof.
  intros H. rewrite (range_split n k H), flat_map_app.
  rewrite flat_map_none.
  2:{ intros x Hx. apply range_in in Hx. destruct (Z.leb_spec k x); [lia|reflexivity]. }
  cbn [app]. rewrite flat_map_eq with (g := fun i => [f i]); [apply flat_map_single|].
  intros x Hx. apply ival_in in Hx. destruct (Z.leb_spec k x); [reflexivity|lia].
Qed.

Lemma steps_spec (D : Z -> Z) step k : forall i d, D i = d ->
  (forall x, i <= x < i + Z.of_nat k -> D (x + 1) = D x + step x) ->
  steps k i d step = map D (ival i (Z.of_nat k)).
Proof.
  induction k as [|k IH]; intros i d Hd H; [reflexivity|]. cbn [steps].
  rewrite (IH (i + 1) (d + step i)).
  - replace (Z.of_nat (S k)) with (1 + Z.of_nat k) by lia. rewrite ival_app by lia.
    rewrite map_app. change (ival i 1) with [i + 0]. cbn [map app]. now rewrite Z.add_0_r, Hd.
  - rewrite H by lia. now rewrite Hd.
  - intros x Hx. apply H. lia.
Qed.
Lemma ival_0 n : ival 0 n = range n.
Proof. unfold ival. rewrite map_ext with (g := fun x => x) by (intros; lia). apply map_id. Qed.

(** By columns *)
Lemma columns n : 0 <= n ->
  Permutation (flat_map (fun i => steps (Z.to_nat (n - i)) 0 i (fun ii => n - ii)) (range n)) (ival 0 (off n n)).
Proof.
  intros Hn.
  rewrite flat_map_eq with (g := fun i => flat_map (fun j => if j <? n - i then [i + off n j] else []) (range n)).
  2:{ intros i Hi. apply range_in in Hi. rewrite below by lia.
      rewrite (steps_spec (fun j => i + off n j)).
      - rewrite Z2Nat.id by lia. now rewrite ival_0.
      - pose proof (off_twice n 0). lia.
      - intros x Hx. pose proof (off_twice n x). pose proof (off_twice n (x + 1)). lia. }
  rewrite flat_map_swap. rewrite <- all_rows by lia.
  apply flat_map_perm. intros j Hj. apply range_in in Hj.
  rewrite flat_map_eq with (g := fun i => if i <? n - j then [i + off n j] else []).
  2:{ intros i Hi. destruct (Z.ltb_spec j (n - i)), (Z.ltb_spec i (n - j)); (reflexivity || lia). }
  rewrite below by lia. unfold ival. erewrite map_ext; [reflexivity|]. intros k. cbn beta. lia.
Qed.
(** By antidiagonals *)
Lemma antidiagonals n : 0 <= n ->
  Permutation (flat_map (fun i => steps (Z.to_nat (i + 1)) 0 i (fun ii => n - 1 - ii)) (rev (range n))) (ival 0 (off n n)).
Proof.
  intros Hn.
  transitivity (flat_map (fun i => steps (Z.to_nat (i + 1)) 0 i (fun ii => n - 1 - ii)) (range n)).
  { apply Permutation_flat_map. symmetry. apply Permutation_rev. }
  rewrite flat_map_eq with (g := fun i => flat_map (fun j => if j <? i + 1 then [i - j + off n j] else []) (range n)).
  2:{ intros i Hi. apply range_in in Hi. rewrite below by lia.
      rewrite (steps_spec (fun j => i - j + off n j)).
      - rewrite Z2Nat.id by lia. now rewrite ival_0.
      - pose proof (off_twice n 0). lia.
      - intros x Hx. pose proof (off_twice n x). pose proof (off_twice n (x + 1)). lia. }
  rewrite flat_map_swap. rewrite <- all_rows by lia.
  apply flat_map_perm. intros j Hj. apply range_in in Hj.
  rewrite flat_map_eq with (g := fun i => if j <=? i then [i - j + off n j] else []).
  2:{ intros i Hi. destruct (Z.ltb_spec j (i + 1)), (Z.leb_spec j i); (reflexivity || lia). }
  rewrite above by lia. unfold ival. rewrite map_map. erewrite map_ext; [reflexivity|]. intros k. cbn beta. lia.
Qed.
