(** Proofs about the local steps of the matrix transpose: blocks, bucket fills, copies. *)
From Verif Require Import Base BaseProofs BucketProofs Algo AlgoProofs World IndexMap IndexMapProofs ImSharedProofs ScattererProofs RoundTrip
  SubMapProofs SparsityProofs MatrixCSR MatrixSpec MatrixProofs MatrixDense MatrixPar MatrixParSpec MatrixParProofs SpmvProofs Collectives MatTrans.
From Verif Require StackProofs.
Open Scope nat_scope.

Lemma nth_uniform {A} n (Bs : list (list A)) q : 0 < n -> (forall B, In B Bs -> length B = n) ->
  nth_error (concat Bs) q = match nth_error Bs (q / n) with Some B => nth_error B (q mod n) | None => None end.
Proof.
  intro Hn. revert q. induction Bs as [|B t IH]; intros q HB; [destruct (q / n); now destruct q|].
  cbn [concat]. assert (LB : length B = n) by (apply HB; now left). destruct (lt_dec q n) as [L|L].
  - rewrite nth_error_app1 by lia. rewrite Nat.div_small, Nat.mod_small by exact L. reflexivity.
  - rewrite nth_error_app2 by lia. rewrite LB, IH by (intros; apply HB; now right).
    replace (q / n) with (S ((q - n) / n)) by (replace q with ((q - n) + 1 * n) at 2 by lia; rewrite Nat.div_add by lia; lia).
    replace (q mod n) with ((q - n) mod n) by (replace q with ((q - n) + 1 * n) at 2 by lia; now rewrite Nat.mod_add by lia). reflexivity.
Qed.
Lemma len_uniform {A} n (Bs : list (list A)) : (forall B, In B Bs -> length B = n) -> length (concat Bs) = length Bs * n.
Proof.
  intro HB. induction Bs as [|B t IH]; [reflexivity|]. cbn [concat length]. rewrite app_length, IH by (intros; apply HB; now right).
  rewrite (HB B) by now left. reflexivity.
Qed.
Lemma in_upd {A} (l l' : list A) p v x : upd l p v = Some l' -> In x l' -> x = v \/ In x l.
Proof. intros H Hx. apply upd_split in H as (a & y & b & -> & _ & ->). rewrite in_app_iff in *. cbn in *. intuition. Qed.

Section Blocks.
Context {T : Type} (zero : T).
Variables bs0 bs1 : nat.
Hypothesis H0 : 0 < bs0.
Hypothesis H1 : 0 < bs1.
Notation nbs := (bs0 * bs1).

(** The transposed block. *)
Definition trb (b : list T) : list T := map (fun j => nth (j mod bs0 * bs1 + j / bs0) b zero) (seq 0 nbs).
Lemma trb_len b : length (trb b) = nbs.
Proof. unfold trb. now rewrite map_length, seq_length. Qed.
Lemma grid_lt k0 k1 : k0 < bs0 -> k1 < bs1 -> k1 * bs0 + k0 < nbs.
Proof. intros A B. assert ((k1 + 1) * bs0 <= bs1 * bs0) by (apply Nat.mul_le_mono_r; lia). lia. Qed.
Lemma grid_div k0 k1 : k0 < bs0 -> (k1 * bs0 + k0) / bs0 = k1 /\ (k1 * bs0 + k0) mod bs0 = k0.
Proof.
  intro A. rewrite Nat.add_comm. rewrite Nat.div_add, Nat.mod_add by lia. rewrite Nat.div_small, Nat.mod_small by exact A. auto.
Qed.
Lemma trb_nth b k0 k1 : k0 < bs0 -> k1 < bs1 -> nth (k1 * bs0 + k0) (trb b) zero = nth (k0 * bs1 + k1) b zero.
Proof.
  intros A B. unfold trb. rewrite nth_indep with (d' := nth (0 mod bs0 * bs1 + 0 / bs0) b zero) by (rewrite map_length, seq_length; now apply grid_lt).
  rewrite (map_nth (fun j => nth (j mod bs0 * bs1 + j / bs0) b zero)), seq_nth by now apply grid_lt.
  destruct (grid_div k0 k1 A) as (E1 & E2). cbn [Nat.add]. now rewrite E1, E2.
Qed.

Lemma put_block_ok src k Bs p b : (forall B, In B Bs -> length B = nbs) -> p < length Bs ->
  slice src (k * nbs) (k * nbs + nbs) = Some b ->
  exists Bs', upd Bs p (trb b) = Some Bs' /\ put_block bs0 bs1 src k (concat Bs) p = Some (concat Bs').
Proof.
  intros HB Hp Hs. apply slice_some in Hs as (_ & Hl & Eb).
  destruct (upd_some Bs p (trb b) Hp) as (Bs' & E'). exists Bs'. split; [exact E'|].
  assert (Hv : forall k0 k1, k0 < bs0 -> k1 < bs1 -> nth_error src (k * bs0 * bs1 + k0 * bs1 + k1) = Some (nth (k0 * bs1 + k1) b zero)).
  { intros k0 k1 A B. assert (L : k0 * bs1 + k1 < nbs) by (assert ((k0 + 1) * bs1 <= bs0 * bs1) by (apply Nat.mul_le_mono_r; lia); lia).
    subst b. rewrite nth_indep with (d' := nth 0 src zero).
    - erewrite <- nth_error_nth_some; [|rewrite firstn_length, skipn_length; lia]. rewrite nth_error_firstn by lia. rewrite nth_error_skipn. f_equal. lia.
    - rewrite firstn_length, skipn_length. lia. }
  set (ps := concat (map (fun k0 => map (fun k1 => (p * nbs + (k1 * bs0 + k0), nth (k0 * bs1 + k1) b zero)) (seq 0 bs1)) (seq 0 bs0))).
  assert (Ein : forall i v, In (i, v) ps <-> exists k0 k1, k0 < bs0 /\ k1 < bs1 /\ i = p * nbs + (k1 * bs0 + k0) /\ v = nth (k0 * bs1 + k1) b zero).
  { intros i v. unfold ps. rewrite in_concat. split.
    - intros (l & Hl' & Hin). apply in_map_iff in Hl' as (k0 & <- & Hk0). apply in_map_iff in Hin as (k1 & Ek & Hk1). apply in_seq in Hk0, Hk1.
      injection Ek as <- <-. exists k0, k1. repeat split; lia.
    - intros (k0 & k1 & A & B & -> & ->). eexists. split; [apply in_map_iff; exists k0; split; [reflexivity|apply in_seq; lia]|].
      apply in_map_iff. exists k1. split; [reflexivity|apply in_seq; lia]. }
  assert (Hnd : NoDup (map fst ps)).
  { unfold ps. rewrite concat_map, map_map. apply NoDup_concat.
    - apply seq_NoDup.
    - intros k0 Hk0. apply in_seq in Hk0. rewrite map_map. cbn [fst]. apply NoDup_map_inj; [apply seq_NoDup|].
      intros x y Hx Hy E. assert (E2 : x * bs0 + k0 = y * bs0 + k0) by lia. destruct (grid_div k0 x), (grid_div k0 y); try lia. congruence.
    - intros x y i Hx Hy Hi Hj. apply in_seq in Hx, Hy. rewrite map_map in Hi, Hj. cbn [fst] in *. apply in_map_iff in Hi as (u & <- & _). apply in_map_iff in Hj as (w & E & _).
      assert (E2 : w * bs0 + y = u * bs0 + x) by lia. destruct (grid_div x u), (grid_div y w); try lia. congruence. }
  destruct (upd_all_spec ps (concat Bs) Hnd) as (y & Ey & Ly & Yin & Yout).
  { intros i v Hi. apply Ein in Hi as (k0 & k1 & A & B & -> & _). rewrite (len_uniform nbs) by exact HB. pose proof (grid_lt k0 k1 A B).
    assert ((p + 1) * nbs <= length Bs * nbs) by (apply Nat.mul_le_mono_r; lia). lia. }
  assert (Ef : put_block bs0 bs1 src k (concat Bs) p = ofold (fun v pg => upd v (fst pg) (snd pg)) ps (concat Bs)).
  { unfold put_block, ps. apply nested_runs. intros k0 s Hk0. apply in_seq in Hk0. apply map_runs. intros k1 s' Hk1. apply in_seq in Hk1.
    rewrite Hv by lia. cbn [obind fst snd]. f_equal. lia. }
  rewrite Ef, Ey. f_equal. apply nth_error_ext. intro q.
  assert (HB' : forall B, In B Bs' -> length B = nbs).
  { intros B HBin. destruct (in_upd _ _ _ _ _ E' HBin) as [->|Hin]; [apply trb_len|now apply HB]. }
  assert (Hnbs : 0 < nbs) by (apply Nat.mul_pos_pos; assumption).
  rewrite (nth_uniform nbs Bs' q Hnbs HB'). rewrite (upd_nth _ _ _ _ _ E').
  destruct (Nat.eqb_spec p (q / nbs)) as [Ep|Np].
  - set (j := q mod nbs). assert (Hj : j < nbs) by (apply Nat.mod_upper_bound; lia).
    assert (Hk0 : j mod bs0 < bs0) by (apply Nat.mod_upper_bound; lia).
    assert (Hk1 : j / bs0 < bs1) by (apply Nat.div_lt_upper_bound; lia).
    assert (Ej : j = j / bs0 * bs0 + j mod bs0) by (rewrite (Nat.div_mod_eq j bs0) at 1; lia).
    assert (Eq : q = p * nbs + j) by (unfold j; rewrite Ep, (Nat.div_mod_eq q nbs) at 1; lia).
    rewrite (Yin q (nth (j mod bs0 * bs1 + j / bs0) b zero)).
    + rewrite (nth_error_nth_some _ j zero) by (rewrite trb_len; exact Hj). f_equal. rewrite Ej at 3. now rewrite trb_nth.
    + apply Ein. exists (j mod bs0), (j / bs0). repeat split; auto. lia.
  - rewrite Yout.
    + rewrite (nth_uniform nbs Bs q Hnbs HB). reflexivity.
    + intro Hin. apply in_map_iff in Hin as ([i v] & Ei & Hin). cbn in Ei. subst i. apply Ein in Hin as (k0 & k1 & A & B & E & _). apply Np.
      pose proof (grid_lt k0 k1 A B). rewrite E, Nat.div_add_l by lia. rewrite Nat.div_small by lia. lia.
Qed.

(** A bucket fill of (column, block) pairs seen as two arrays. *)
Definition two (D : list (nat * list T)) : list nat * list T := (map fst D, concat (map snd D)).
Definition blocks_ok (D : list (nat * list T)) : Prop := forall cb, In cb D -> length (snd cb) = nbs.

Lemma upd_map {A B} (f : A -> B) l p v l' : upd l p v = Some l' -> upd (map f l) p (f v) = Some (map f l').
Proof.
  intro H. apply upd_split in H as (a & y & b & -> & <- & ->). apply upd_split. exists (map f a), (f y), (map f b). rewrite !map_app, map_length. auto.
Qed.

Lemma put_entry_place src cursor D row c k b st' : blocks_ok D -> slice src (k * nbs) (k * nbs + nbs) = Some b ->
  place (cursor, D) (row, (c, trb b)) = Some st' ->
  put_entry bs0 bs1 src (cursor, two D) row c k = Some (fst st', two (snd st')) /\ blocks_ok (snd st').
Proof.
  intros HD Hb H. unfold place in H. cbn [fst snd] in H. apply obind_some in H as (p & Ep & H). apply obind_some in H as (D' & ED & H). apply obind_some in H as (cur' & Ec & H).
  injection H as <-. cbn [fst snd]. split.
  - unfold put_entry, two. rewrite Ep. cbn [obind]. rewrite Ec. cbn [obind]. pose proof (upd_map fst _ _ _ _ ED) as EF. cbn [fst] in EF. rewrite EF. cbn [obind].
    destruct (put_block_ok src k (map snd D) p b) as (Bs' & EB & Eput).
    + intros B HB. apply in_map_iff in HB as (cb & <- & HB). now apply HD.
    + rewrite map_length. eapply upd_bound; eauto.
    + exact Hb.
    + pose proof (upd_map snd _ _ _ _ ED) as ES. cbn [snd] in ES. rewrite ES in EB. injection EB as <-. rewrite Eput. reflexivity.
  - intros cb Hcb. destruct (in_upd _ _ _ _ _ ED Hcb) as [->|Hin]; [apply trb_len|now apply HD].
Qed.

Lemma put_entries {E} (src : list T) (step : list nat * (list nat * list T) -> E -> option (list nat * (list nat * list T)))
    (row col : E -> nat) (blk : E -> list T) (k : E -> nat) es :
  (forall e st, In e es -> step st e = put_entry bs0 bs1 src st (row e) (col e) (k e)) ->
  (forall e, In e es -> slice src (k e * nbs) (k e * nbs + nbs) = Some (blk e)) ->
  forall cursor D st', blocks_ok D ->
  ofold place (map (fun e => (row e, (col e, trb (blk e)))) es) (cursor, D) = Some st' ->
  ofold step es (cursor, two D) = Some (fst st', two (snd st')) /\ blocks_ok (snd st').
Proof.
  induction es as [|e es IH]; intros Hst Hb cursor D st' HD H.
  - cbn [map ofold] in *. injection H as <-. auto.
  - cbn [map ofold] in *. apply obind_some in H as ([cur1 D1] & H1' & H2). 
    destruct (put_entry_place src cursor D (row e) (col e) (k e) (blk e) (cur1, D1) HD (Hb e (or_introl eq_refl)) H1') as (E1 & HD1).
    rewrite Hst by now left. rewrite E1. cbn [obind fst snd]. apply IH; auto.
    + intros e' st He. apply Hst. now right.
    + intros e' He. apply Hb. now right.
Qed.
End Blocks.

Lemma firstn_pre {V} (a : list V) y b : firstn (length a) (a ++ y :: b) = a.
Proof. induction a as [|z a IH]; [reflexivity|]. cbn. now rewrite IH. Qed.
Lemma firstn_past {V} (a : list V) y b : firstn (S (length a)) (a ++ y :: b) = a ++ [y].
Proof. induction a as [|z a IH]; [reflexivity|]. cbn [length app]. rewrite firstn_cons. now rewrite IH. Qed.
Lemma skipn_past {V} (a : list V) y b n : skipn (S (length a) + n) (a ++ y :: b) = skipn n b.
Proof. induction a as [|z a IH]; [reflexivity|]. cbn [length app]. exact IH. Qed.
(** A copy is a run of placements in one bucket. *)
Lemma copy_place {V} (l : list V) : forall cursor data j p, nth_error cursor j = Some p -> p + length l <= length data ->
  exists cursor', ofold place (map (pair j) l) (cursor, data) = Some (cursor', firstn p data ++ l ++ skipn (p + length l) data) /\
    length cursor' = length cursor /\ nth_error cursor' j = Some (p + length l) /\ forall i, i <> j -> nth_error cursor' i = nth_error cursor i.
Proof.
  induction l as [|x l IH]; intros cursor data j p Hj Hl.
  - exists cursor. cbn [map ofold length app]. rewrite Nat.add_0_r, firstn_skipn. auto.
  - cbn [map ofold length] in *. unfold place at 1. cbn [fst snd]. rewrite Hj. cbn [obind].
    destruct (upd_some data p x ltac:(lia)) as (d1 & E1). rewrite E1. cbn [obind].
    destruct (upd_some cursor j (S p) ltac:(eapply nth_error_bound; eauto)) as (c1 & Ec). rewrite Ec. cbn [obind].
    destruct (IH c1 d1 j (S p)) as (c' & E & L & N & O).
    + eapply upd_nth_eq; eauto.
    + rewrite (upd_length _ _ _ _ E1). lia.
    + exists c'. rewrite E. split; [|split; [|split]].
      * f_equal. f_equal. apply upd_split in E1 as (a & y & b & -> & <- & ->).
        rewrite (firstn_past a x b), (skipn_past a x b), (firstn_pre a y b). replace (length a + S (length l)) with (S (length a) + length l) by lia. rewrite (skipn_past a y b). now rewrite <- app_assoc.
      * rewrite L. eapply upd_length; eauto.
      * rewrite N. f_equal. lia.
      * intros i Hi. rewrite O by exact Hi. eapply upd_nth_neq; eauto.
Qed.
