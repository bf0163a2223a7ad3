(** Lemmas about sending ghosts to their owners and getting an answer for each. *)
From Verif Require Import Base BaseProofs Algo AlgoProofs World WorldProofs
  IndexMap IndexMapSpec IndexMapProofs ImSharedProofs ScattererProofs SubMap.

Lemma map_seq_nth {A B} (f : nat -> B) (g : A -> B) l :
  (forall k s, nth_error l k = Some s -> f k = g s) -> map f (seq 0 (length l)) = map g l.
Proof.
  intro H. apply nth_error_ext. intro i. rewrite !nth_error_map_some. destruct (nth_error l i) as [s|] eqn:E.
  - rewrite nth_error_seq by (eapply nth_error_bound; eauto). cbn. f_equal. now apply H.
  - apply nth_error_None in E. replace (nth_error (seq 0 (length l)) i) with (@None nat); [reflexivity|].
    symmetry. apply nth_error_None. now rewrite seq_length.
Qed.

(** (ghost, position) for the included ghosts with owner [s]. *)
Definition blk (ghosts owners : list nat) (inc : list bool) (s : nat) : list (nat * nat) :=
  map (fun i => (nth i ghosts 0, i))
      (filter (fun i => nth i inc false && (nth i owners 0 =? s)) (seq 0 (length ghosts))).

Lemma blk_in ghosts owners inc s g i : length owners = length ghosts -> length inc = length ghosts ->
  In (g, i) (blk ghosts owners inc s) <->
  nth_error ghosts i = Some g /\ nth_error owners i = Some s /\ nth_error inc i = Some true.
Proof.
  intros Ho Hi. unfold blk. rewrite in_map_iff. split.
  - intros (j & E & Hj). injection E as <- ->. apply filter_In in Hj as (Hj & Hb). apply in_seq in Hj.
    apply andb_true_iff in Hb as (Hb & Hs). apply Nat.eqb_eq in Hs.
    rewrite (nth_error_nth_some ghosts i 0), (nth_error_nth_some owners i 0), (nth_error_nth_some inc i false) by lia.
    rewrite Hb, Hs. auto.
  - intros (Hg & Hs & Hb). exists i. pose proof (nth_error_bound _ _ _ Hg). split.
    + now rewrite (nth_error_nth _ _ _ Hg).
    + apply filter_In. split; [apply in_seq; lia|]. rewrite (nth_error_nth _ _ _ Hs), (nth_error_nth _ _ _ Hb), Nat.eqb_refl. reflexivity.
Qed.

Definition sendval (src : list nat) (b : nat -> list (nat * nat)) : sbuf nat * list nat :=
  ((concat (map (fun s => map fst (b s)) src),
    (map (fun s => length (map fst (b s))) src, psums (map (fun s => length (map fst (b s))) src))),
   concat (map (fun s => map snd (b s)) src)).

Lemma cgo_send_ok src ghosts owners inc : StronglySorted lt src ->
  length owners = length ghosts -> length inc = length ghosts -> (forall o, In o owners -> In o src) ->
  cgo_send src ghosts owners inc = Some (sendval src (blk ghosts owners inc)).
Proof.
  intros Hs Ho Hi Hin. unfold cgo_send. set (pos := fun i => match index_in (nth i owners 0) src with Some k => k | None => 0 end).
  assert (Hpos : forall i, i < length ghosts -> find_sorted src (nth i owners 0) = Some (pos i) /\ nth_error src (pos i) = Some (nth i owners 0)).
  { intros i Hlt. rewrite find_sorted_spec by exact Hs. unfold pos.
    destruct (index_in_in (nth i owners 0) src) as (k & Ek); [apply Hin, nth_In; lia|]. rewrite Ek. split; [reflexivity|]. now apply index_in_some. }
  rewrite omap_map with (g := fun i => if nth i inc false then [(pos i, (nth i ghosts 0, i))] else []).
  - cbn [obind]. rewrite push_all_spec.
    + cbn [obind]. 
      assert (E : map (fun k => vals k (concat (map (fun i => if nth i inc false then [(pos i, (nth i ghosts 0, i))] else []) (seq 0 (length ghosts)))))
                (seq 0 (length src)) = map (blk ghosts owners inc) src).
      { apply map_seq_nth. intros k s Hk. unfold blk.
        assert (G : forall l, (forall i, In i l -> i < length ghosts) ->
          vals k (concat (map (fun i => if nth i inc false then [(pos i, (nth i ghosts 0, i))] else []) l)) =
          map (fun i => (nth i ghosts 0, i)) (filter (fun i => nth i inc false && (nth i owners 0 =? s)) l)).
        { induction l as [|i t IH]; intro Hl; [reflexivity|]. cbn [map concat filter].
          assert (IH' := IH (fun i Hi => Hl i (or_intror Hi))). destruct (Hpos i (Hl i (or_introl eq_refl))) as (_ & Hn).
          destruct (nth i inc false); [|exact IH']. cbn [andb app]. unfold vals in *. cbn [filter fst].
          destruct (Nat.eqb_spec (pos i) k) as [E|N].
          - rewrite E, Hk in Hn. injection Hn as ->. rewrite Nat.eqb_refl. cbn [map snd]. now rewrite IH'.
          - destruct (Nat.eqb_spec (nth i owners 0) s) as [E|_]; [|exact IH'].
            exfalso. apply N. rewrite E in Hn. eapply NoDup_nth_error_inj; eauto. now apply SS_lt_NoDup. }
        apply G. intros i Hl. apply in_seq in Hl. lia. }
      rewrite E. unfold sendval. f_equal. rewrite !concat_map, !map_map.
      assert (El : map (fun s => length (map fst (blk ghosts owners inc s))) src = map (fun s => length (blk ghosts owners inc s)) src)
        by (apply map_ext; intro; apply map_length).
      now rewrite El.
    + intros [k v] Hkv. apply in_concat in Hkv as (l & Hl & Hkv). apply in_map_iff in Hl as (i & <- & Hi'). apply in_seq in Hi'.
      destruct (Hpos i) as (_ & Hn); [lia|]. destruct (nth i inc false); [|destruct Hkv]. destruct Hkv as [E|[]]. injection E as <- _.
      cbn. eapply nth_error_bound; eauto.
  - intros i Hi'. apply in_seq in Hi'. rewrite (nth_error_nth_some ghosts i 0), (nth_error_nth_some owners i 0), (nth_error_nth_some inc i false) by lia.
    cbn [obind]. destruct (Hpos i) as (-> & _); [lia|]. reflexivity.
Qed.

Section Round.
Variables (P : nat) (src dest : nat -> list nat) (send : nat -> option (sbuf nat * list nat)).
Variable B : nat -> nat -> list (nat * nat).
Hypothesis HG : graph_ok P dest src.
Hypothesis Hsend : forall q, q < P -> send q = Some (sendval (src q) (B q)).

Lemma forward_ok r : r < P ->
  exchange P dest src (fun q => '(s, _) <- send q ;; Some s) r
  = Some (concat (map (fun q => map fst (B q r)) (dest r)), map (fun q => length (map fst (B q r))) (dest r)).
Proof.
  intro Hr. apply (exchange_spec P dest src _ (fun q s => map fst (B q s)) r HG Hr).
  intros q Hq. apply (HG r Hr) in Hq as (Hq & _). rewrite (Hsend q Hq). reflexivity.
Qed.

Lemma reply_ok {A} (data : nat -> option (list A * list nat)) (F : nat -> nat -> A) r : r < P ->
  (forall s, In s (src r) ->
    data s = Some (concat (map (fun q => map (F s) (map fst (B q s))) (dest s)), map (fun q => length (map fst (B q s))) (dest s))) ->
  reply P src dest data send r = Some (concat (map (fun s => map (F s) (map fst (B r s))) (src r))).
Proof.
  intros Hr Hd. unfold reply.
  apply (neigh_alltoallv_spec P src dest _ _ (fun s q => map (F s) (map fst (B q s))) r (graph_ok_sym _ _ _ HG) Hr).
  - intros s Hs. rewrite (Hd s Hs). cbn [obind].
    assert (E : map (fun q => length (map (F s) (map fst (B q s)))) (dest s) = map (fun q => length (map fst (B q s))) (dest s)).
    { apply map_ext. intro. now rewrite map_length. }
    now rewrite E.
  - rewrite (Hsend r Hr). unfold sendval. cbn [obind]. f_equal. apply map_ext. intro. now rewrite (map_length (F a)).
Qed.
End Round.

(** Positions zipped with the answers. *)
Lemma combine_concat {A B C} (f : A -> list B) (g : A -> list C) l : (forall x, In x l -> length (f x) = length (g x)) ->
  combine (concat (map f l)) (concat (map g l)) = concat (map (fun x => combine (f x) (g x)) l).
Proof.
  induction l as [|x t IH]; intro H; [reflexivity|]. cbn [map concat].
  assert (G : forall (a a' : list B) (b b' : list C), length a = length b -> combine (a ++ a') (b ++ b') = combine a b ++ combine a' b').
  { induction a as [|y a IHa]; intros a' [|z b] b' E; cbn in *; try discriminate; [reflexivity|]. rewrite IHa by lia. reflexivity. }
  rewrite G by (apply H; now left). rewrite IH; [reflexivity|]. intros; apply H; now right.
Qed.

(** Writing each answer at its position. *)
Lemma upd_all_spec {A} (ps : list (nat * A)) (x : list A) : NoDup (map fst ps) -> (forall i v, In (i, v) ps -> i < length x) ->
  exists y, ofold (fun v pg => upd v (fst pg) (snd pg)) ps x = Some y /\ length y = length x /\
    (forall i v, In (i, v) ps -> nth_error y i = Some v) /\ (forall i, ~ In i (map fst ps) -> nth_error y i = nth_error x i).
Proof.
  revert x. induction ps as [|[i v] t IH]; intros x Hn Hb.
  - exists x. cbn. repeat split; auto. intros ? ? [].
  - cbn [map fst] in Hn. inversion_clear Hn as [|? ? Hni Hn']. cbn [ofold fst snd].
    destruct (upd_some x i v) as (x' & Ex); [eapply Hb; now left|]. rewrite Ex. cbn [obind].
    pose proof (upd_length _ _ _ _ Ex) as El.
    destruct (IH x' Hn') as (y & Ey & Hl & H1 & H2); [intros j w Hj; rewrite El; eapply Hb; right; exact Hj|].
    exists y. split; [exact Ey|]. split; [congruence|]. split.
    + intros j w [E|Hj]; [|now apply H1]. injection E as -> ->. rewrite H2 by exact Hni. eapply upd_nth_eq; eauto.
    + intros j Hj. cbn [map fst] in Hj. rewrite H2 by (intro; apply Hj; now right). eapply upd_nth_neq; eauto. intros ->. apply Hj. now left.
Qed.

Lemma upd_all_full {A} (ps : list (nat * A)) (f : nat -> A) n x : NoDup (map fst ps) -> length x = n ->
  (forall i v, In (i, v) ps -> i < n /\ v = f i) -> (forall i, i < n -> In i (map fst ps)) ->
  ofold (fun v pg => upd v (fst pg) (snd pg)) ps x = Some (map f (seq 0 n)).
Proof.
  intros Hn Hx Hb Hall. destruct (upd_all_spec ps x Hn) as (y & Ey & Hl & H1 & _).
  { intros i v Hi. rewrite Hx. now apply (Hb i v). }
  rewrite Ey. f_equal. apply nth_error_ext. intro i. rewrite nth_error_map_some.
  destruct (le_lt_dec n i) as [L|L].
  - rewrite (proj2 (nth_error_None y i)) by lia. rewrite (proj2 (nth_error_None (seq 0 n) i)) by (rewrite seq_length; lia). reflexivity.
  - rewrite nth_error_seq by exact L. cbn. specialize (Hall i L). apply in_map_iff in Hall as ([j v] & E & Hj). cbn in E; subst j.
    rewrite (H1 i v Hj). f_equal. now apply (Hb i v).
Qed.

Lemma blk_snd_NoDup src ghosts owners inc : NoDup src ->
  NoDup (concat (map (fun s => map snd (blk ghosts owners inc s)) src)).
Proof.
  intro Hs. apply NoDup_concat; [exact Hs| |].
  - intros s _. unfold blk. rewrite map_map. rewrite map_ext with (g := fun i => i) by reflexivity. rewrite map_id.
    apply NoDup_filter, seq_NoDup.
  - intros s s' i _ _ H H'. unfold blk in H, H'. rewrite map_map in H, H'.
    apply in_map_iff in H as (a & Ea & Ha). apply in_map_iff in H' as (b & Eb & Hb). cbn in Ea, Eb. subst a b.
    apply filter_In in Ha as (_ & Ha). apply filter_In in Hb as (_ & Hb).
    apply andb_true_iff in Ha as (_ & Ha). apply andb_true_iff in Hb as (_ & Hb). apply Nat.eqb_eq in Ha, Hb. congruence.
Qed.

(** (position, answer) pairs after a round trip. *)
Lemma answers_eq {A} (F : nat -> nat -> A) (b : nat -> list (nat * nat)) src :
  combine (concat (map (fun s => map snd (b s)) src)) (concat (map (fun s => map (F s) (map fst (b s))) src))
  = concat (map (fun s => map (fun p => (snd p, F s (fst p))) (b s)) src).
Proof.
  rewrite combine_concat by (intros; now rewrite !map_length). f_equal. apply map_ext. intro s. rewrite map_map. apply combine_map.
Qed.

Lemma answers_fst {A} (F : nat -> nat -> A) (b : nat -> list (nat * nat)) src :
  map fst (concat (map (fun s => map (fun p => (snd p, F s (fst p))) (b s)) src)) = concat (map (fun s => map snd (b s)) src).
Proof.
  rewrite concat_map, map_map. f_equal. apply map_ext. intro s. now rewrite map_map.
Qed.
