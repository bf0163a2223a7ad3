(** Correctness of the count / prefix-sum / fill idiom used all over the code base. *)
From Verif Require Import Base BaseProofs.

Lemma nth_error_concat {A} (L : list (list A)) k m j :
  nth_error L k = Some m -> j < length m ->
  nth_error (concat L) (lsum (firstn k (map (@length A) L)) + j) = nth_error m j.
Proof.
  revert k; induction L as [|x t IH]; intros [|k] H Hj; cbn in H; try discriminate.
  - injection H as ->. cbn. rewrite lsum_nil. cbn. now rewrite nth_error_app1.
  - cbn [map firstn concat]. rewrite lsum_cons, <- Nat.add_assoc.
    rewrite nth_error_app2 by lia.
    replace (length x + (lsum (firstn k (map (length (A:=A)) t)) + j) - length x)
      with (lsum (firstn k (map (length (A:=A)) t)) + j) by lia.
    now apply IH.
Qed.

Lemma concat_index {A} (L : list (list A)) i :
  i < length (concat L) ->
  exists k m j, nth_error L k = Some m /\ j < length m /\
                i = lsum (firstn k (map (@length A) L)) + j.
Proof.
  revert i; induction L as [|x t IH]; intros i H; cbn in H; [lia|].
  rewrite app_length in H.
  destruct (lt_dec i (length x)) as [Hx|Hx].
  - exists 0, x, i. cbn. rewrite lsum_nil. auto.
  - destruct (IH (i - length x)) as (k & m & j & Hk & Hj & E); [lia|].
    exists (S k), m, j. cbn [map firstn nth_error]. rewrite lsum_cons. repeat split; auto. lia.
Qed.

Lemma lsum_firstn_mono (l : list nat) a b : a <= b -> lsum (firstn a l) <= lsum (firstn b l).
Proof.
  intro H. replace a with (min a b) by lia. rewrite <- firstn_firstn. apply lsum_firstn_le.
Qed.

Lemma off_disjoint (l : list nat) k k' c : k < k' -> nth_error l k = Some c ->
  lsum (firstn k l) + c <= lsum (firstn k' l).
Proof.
  intros H Hc. rewrite <- (lsum_firstn_S _ _ _ Hc). apply lsum_firstn_mono. lia.
Qed.

Lemma vals_app {V} k (l1 l2 : list (nat * V)) : vals k (l1 ++ l2) = vals k l1 ++ vals k l2.
Proof. unfold vals. now rewrite filter_app, map_app. Qed.

Lemma vals_one {V} k (kv : nat * V) : vals k [kv] = if fst kv =? k then [snd kv] else [].
Proof. unfold vals. cbn. now destruct (fst kv =? k). Qed.

Lemma vals_length {V} k (l : list (nat * V)) :
  length (vals k l) = countb (fun x => x =? k) (map fst l).
Proof.
  unfold vals. rewrite map_length, <- countb_filter.
  induction l as [|a t IH]; cbn; [reflexivity|]. now rewrite IH.
Qed.

Lemma vals_map_seq_total {V} n (kvs : list (nat * V)) :
  Forall (fun kv => fst kv < n) kvs ->
  length (concat (map (fun k => vals k kvs) (seq 0 n))) = length kvs.
Proof.
  intro H. induction H as [|kv kvs Hk _ IH].
  - unfold vals. cbn. now rewrite concat_map_nil.
  - cbn [length]. rewrite <- IH.
    rewrite <- !lsum_concat_length, !map_map.
    assert (G : forall s m, s <= fst kv < s + m ->
      lsum (map (fun k => length (vals k (kv :: kvs))) (seq s m))
      = S (lsum (map (fun k => length (vals k kvs)) (seq s m)))).
    { assert (G0 : forall s m, fst kv < s \/ s + m <= fst kv ->
        lsum (map (fun k => length (vals k (kv :: kvs))) (seq s m))
        = lsum (map (fun k => length (vals k kvs)) (seq s m))).
      { intros s m. revert s. induction m as [|m IHm]; intros s Hs; cbn [seq map]; [reflexivity|].
        rewrite !lsum_cons, IHm by lia. f_equal.
        change (kv :: kvs) with ([kv] ++ kvs). rewrite vals_app, vals_one, app_length.
        destruct (Nat.eqb_spec (fst kv) s); cbn; lia. }
      intros s m. revert s. induction m as [|m IHm]; intros s Hs; [lia|]. cbn [seq map].
      rewrite !lsum_cons.
      change (kv :: kvs) with ([kv] ++ kvs) at 1. rewrite vals_app, vals_one, app_length.
      destruct (Nat.eqb_spec (fst kv) s).
      - cbn [length]. rewrite G0 by lia. lia.
      - cbn [length]. rewrite IHm by lia. lia. }
    apply G. lia.
Qed.

Definition offk {V} n (kvs : list (nat * V)) (k : nat) : nat :=
  lsum (firstn k (map (fun k => length (vals k kvs)) (seq 0 n))).

Lemma offk_disjoint {V} n (kvs : list (nat * V)) k k' :
  k < k' -> k < n -> offk n kvs k + length (vals k kvs) <= offk n kvs k'.
Proof.
  intros H Hk. unfold offk. apply off_disjoint; [exact H|].
  rewrite nth_error_map_some, nth_error_seq by lia. reflexivity.
Qed.

(** The fill loop: started at the bucket offsets it puts the values of each key, in
    order, in that key's slice. *)
Lemma place_all {V} n (kvs : list (nat * V)) pos0 (data0 : list V) :
  Forall (fun kv => fst kv < n) kvs ->
  (forall k, k < n -> nth_error pos0 k = Some (offk n kvs k)) ->
  length data0 = length kvs ->
  exists pos', ofold place kvs (pos0, data0)
               = Some (pos', concat (map (fun k => vals k kvs) (seq 0 n)))
          /\ length pos' = length pos0
          /\ (forall k, k < n -> nth_error pos' k = Some (offk n kvs k + length (vals k kvs)))
          /\ (forall k, n <= k -> nth_error pos' k = nth_error pos0 k).
Proof.
  intros Hk Hpos Hlen.
  assert (Htot := vals_map_seq_total n kvs Hk).
  pose (Inv := fun (p : list (nat * V)) (st : list nat * list V) =>
     length (snd st) = length kvs /\ length (fst st) = length pos0 /\
     (forall k, k < n -> nth_error (fst st) k = Some (offk n kvs k + length (vals k p))) /\
     (forall k, n <= k -> nth_error (fst st) k = nth_error pos0 k) /\
     (forall k j v, k < n -> nth_error (vals k p) j = Some v ->
                    nth_error (snd st) (offk n kvs k + j) = Some v)).
  destruct (@ofold_prefix_ind _ _ place Inv kvs (pos0, data0)) as ((pos', data') & Hr & Hi).
  - repeat split; cbn; auto.
    + intros k Hkn. rewrite Hpos by exact Hkn. f_equal. unfold vals. cbn. lia.
    + intros k j v _ Hj. destruct j; discriminate.
  - intros p kv q (pos, data) E (I1 & I2 & I3 & I3' & I4). cbn [fst snd] in *.
    assert (Hkv : fst kv < n).
    { rewrite Forall_forall in Hk. apply Hk. rewrite E. apply in_or_app. right. now left. }
    assert (Hpre : forall k, vals k kvs = vals k p ++ vals k [kv] ++ vals k q).
    { intro k. rewrite E. change (kv :: q) with ([kv] ++ q). now rewrite !vals_app. }
    assert (Hlt : forall k, k < n -> offk n kvs k + length (vals k kvs) <= length kvs).
    { intros k Hkn. rewrite <- Htot, <- lsum_concat_length, map_map.
      etransitivity; [|apply (lsum_firstn_le _ (S k))]. unfold offk.
      rewrite <- lsum_firstn_S with (x := length (vals k kvs)); [reflexivity|].
      rewrite nth_error_map_some, nth_error_seq by lia. reflexivity. }
    assert (Hin : length (vals (fst kv) p) < length (vals (fst kv) kvs)).
    { rewrite (Hpre (fst kv)), !app_length, vals_one, Nat.eqb_refl. cbn. lia. }
    unfold place. cbn [fst snd]. rewrite I3 by exact Hkv. cbn [obind].
    destruct (upd_some data (offk n kvs (fst kv) + length (vals (fst kv) p)) (snd kv)) as (data' & Hd).
    { specialize (Hlt _ Hkv). lia. }
    rewrite Hd. cbn [obind].
    destruct (upd_some pos (fst kv) (S (offk n kvs (fst kv) + length (vals (fst kv) p)))) as (pos' & Hp').
    { apply nth_error_Some. rewrite I3 by exact Hkv. discriminate. }
    rewrite Hp'. cbn [obind]. eexists; split; [reflexivity|].
    repeat split; cbn [fst snd].
    + rewrite (upd_length _ _ _ _ Hd). exact I1.
    + rewrite (upd_length _ _ _ _ Hp'). exact I2.
    + intros k Hkn. rewrite (upd_nth _ _ _ k _ Hp'), vals_app, vals_one, app_length.
      destruct (Nat.eqb_spec (fst kv) k) as [<-|N]; cbn [length].
      * f_equal. lia.
      * rewrite I3 by exact Hkn. f_equal. lia.
    + intros k Hkn. rewrite (upd_nth_neq _ _ _ k _ Hp') by lia. now apply I3'.
    + intros k j v Hkn Hj. rewrite vals_app, vals_one in Hj.
      rewrite (upd_nth _ _ _ _ _ Hd).
      destruct (Nat.eqb_spec (fst kv) k) as [<-|N].
      * destruct (lt_dec j (length (vals (fst kv) p))) as [Hlj|Hlj].
        -- rewrite nth_error_app1 in Hj by exact Hlj.
           destruct (Nat.eqb_spec (offk n kvs (fst kv) + length (vals (fst kv) p))
                                  (offk n kvs (fst kv) + j)); [lia|]. now apply I4.
        -- rewrite nth_error_app2 in Hj by lia.
           destruct (j - length (vals (fst kv) p)) as [|j'] eqn:Ej; cbn in Hj.
           ++ replace (offk n kvs (fst kv) + j) with
                (offk n kvs (fst kv) + length (vals (fst kv) p)) by lia.
              now rewrite Nat.eqb_refl.
           ++ destruct j'; discriminate.
      * rewrite app_nil_r in Hj.
        assert (Hj' := nth_error_bound _ _ _ Hj).
        assert (length (vals k p) <= length (vals k kvs)) by (rewrite (Hpre k), app_length; lia).
        destruct (Nat.eqb_spec (offk n kvs (fst kv) + length (vals (fst kv) p))
                                (offk n kvs k + j)) as [Eq|_]; [exfalso|now apply I4].
        destruct (lt_dec (fst kv) k) as [L|L].
        -- pose proof (offk_disjoint n kvs (fst kv) k L Hkv). lia.
        -- assert (L' : k < fst kv) by lia.
           pose proof (offk_disjoint n kvs k (fst kv) L' Hkn). lia.
  - destruct Hi as (I1 & I2 & I3 & I3' & I4). cbn [fst snd] in *.
    exists pos'. split; [|auto]. rewrite Hr. do 2 f_equal.
    apply nth_error_ext. intro i.
    destruct (lt_dec i (length kvs)) as [Hi|Hi].
    + assert (Hi' := Hi). rewrite <- Htot in Hi'.
      destruct (concat_index _ _ Hi') as (k & m & j & Hm & Hj & Ei).
      pose proof (nth_error_bound _ _ _ Hm) as Hkn. rewrite map_length, seq_length in Hkn.
      rewrite Ei, (nth_error_concat _ _ _ _ Hm Hj).
      rewrite nth_error_map_some, nth_error_seq in Hm by exact Hkn.
      cbn in Hm. injection Hm as <-.
      rewrite map_map. destruct (nth_error_lt _ _ Hj) as (v & Hv). rewrite Hv.
      apply (I4 k j v Hkn Hv).
    + transitivity (@None V); [|symmetry]; apply nth_error_None; lia.
Qed.

Lemma count_keys_spec n keys :
  Forall (fun k => k < n) keys ->
  count_keys n keys = Some (map (fun k => countb (fun x => x =? k) keys) (seq 0 n)).
Proof.
  intro H. unfold count_keys.
  pose (Inv := fun (p : list nat) (l : list nat) =>
    l = map (fun k => countb (fun x => x =? k) p) (seq 0 n)).
  destruct (@ofold_prefix_ind _ _ incr Inv keys (repeat 0 n)) as (l & Hr & Hi).
  - unfold Inv. apply nth_error_ext. intro i.
    destruct (lt_dec i n).
    + rewrite nth_error_repeat, nth_error_map_some, nth_error_seq by lia. reflexivity.
    + transitivity (@None nat); [|symmetry]; apply nth_error_None;
        rewrite ?repeat_length, ?map_length, ?seq_length; lia.
  - intros p a q s E HI. unfold Inv in HI. subst s.
    assert (Ha : a < n).
    { rewrite Forall_forall in H. apply H. rewrite E. apply in_or_app. right. now left. }
    destruct (modify_some (map (fun k => countb (fun x => x =? k) p) (seq 0 n)) a S) as (s' & Hs').
    { rewrite map_length, seq_length. exact Ha. }
    exists s'. split; [exact Hs'|]. unfold Inv. apply nth_error_ext. intro i.
    rewrite (modify_nth _ _ _ i _ Hs').
    destruct (lt_dec i n) as [Hi|Hi].
    + rewrite !nth_error_map_some, nth_error_seq by exact Hi. cbn.
      rewrite countb_app. cbn. destruct (Nat.eqb_spec a i); f_equal; lia.
    + rewrite !nth_error_map_some.
      replace (nth_error (seq 0 n) i) with (@None nat)
        by (symmetry; apply nth_error_None; rewrite seq_length; lia).
      now destruct (a =? i).
  - rewrite Hr. f_equal. exact Hi.
Qed.

Lemma count_keys_none n keys k : In k keys -> n <= k -> count_keys n keys = None.
Proof.
  intros Hin Hk. unfold count_keys.
  assert (G : forall l, length l = n -> ofold incr keys l = None).
  { revert Hin. induction keys as [|a t IH]; intros Hin l Hl; [destruct Hin|].
    cbn. unfold incr at 1. destruct (modify l a S) as [l'|] eqn:E; [|reflexivity].
    cbn. destruct Hin as [->|Hin].
    - unfold modify in E. apply obind_some in E as (x & Hx & _).
      apply nth_error_bound in Hx. lia.
    - apply IH; [exact Hin|]. rewrite (modify_length _ _ _ _ E). exact Hl. }
  apply G. apply repeat_length.
Qed.

Lemma map_vals_counts {V} n (kvs : list (nat * V)) :
  map (fun k => countb (fun x => x =? k) (map fst kvs)) (seq 0 n)
  = map (fun k => length (vals k kvs)) (seq 0 n).
Proof. apply map_ext. intro k. now rewrite vals_length. Qed.

Lemma psums_offk {V} n (kvs : list (nat * V)) k :
  k <= n ->
  nth_error (psums (map (fun k => length (vals k kvs)) (seq 0 n))) k = Some (offk n kvs k).
Proof. intro H. rewrite psums_nth; [reflexivity|]. rewrite map_length, seq_length. exact H. Qed.
