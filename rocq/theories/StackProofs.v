From Verif Require Import Base BaseProofs Algo AlgoProofs World WorldProofs
  IndexMap IndexMapSpec IndexMapProofs ImSharedProofs ScattererProofs SubMap SubMapSpec RoundTrip.

Lemma ofold_ext {S A} (f g : S -> A -> option S) l s : (forall s a, In a l -> f s a = g s a) -> ofold f l s = ofold g l s.
Proof.
  revert s. induction l as [|a t IH]; intros s H; [reflexivity|]. cbn [ofold]. rewrite (H s a) by now left.
  destruct (g s a); cbn [obind]; [|reflexivity]. apply IH. intros; apply H; now right.
Qed.
Lemma ofold_map {S A B} (h : A -> B) (f : S -> B -> option S) l s : ofold f (map h l) s = ofold (fun s a => f s (h a)) l s.
Proof. revert s. induction l as [|a t IH]; intro s; [reflexivity|]. cbn. destruct (f s (h a)); cbn; auto. Qed.
Lemma ofold_nested {S A B} (g : A -> list B) (f : S -> B -> option S) l s :
  ofold (fun s a => ofold f (g a) s) l s = ofold f (concat (map g l)) s.
Proof.
  revert s. induction l as [|a t IH]; intro s; [reflexivity|]. cbn [ofold map concat]. rewrite ofold_app.
  destruct (ofold f (g a) s); cbn [obind]; auto.
Qed.
Lemma ofold_seq_nth {S A} (f : S -> nat -> option S) (g : S -> A -> option S) l s :
  (forall i a s, nth_error l i = Some a -> f s i = g s a) -> ofold f (seq 0 (length l)) s = ofold g l s.
Proof.
  assert (G : forall l n s, (forall i a s, nth_error l i = Some a -> f s (n + i) = g s a) -> ofold f (seq n (length l)) s = ofold g l s).
  { clear. induction l as [|a t IH]; intros n s H; [reflexivity|]. cbn [length seq ofold].
    rewrite <- (H 0 a s eq_refl), Nat.add_0_r. destruct (f s n); cbn [obind]; [|reflexivity]. apply IH.
    intros i b s' Hi. rewrite Nat.add_succ_l, <- Nat.add_succ_r. now apply H. }
  intro H. apply G. exact H.
Qed.

Lemma nth_concat {A B} (f : A -> list B) l i x t : nth_error l i = Some x -> t < length (f x) ->
  nth_error (concat (map f l)) (lsum (firstn i (map (fun x => length (f x)) l)) + t) = nth_error (f x) t.
Proof.
  revert i. induction l as [|y l IH]; intros [|i] Hi Ht; cbn in Hi; try discriminate.
  - injection Hi as ->. cbn [map concat firstn]. rewrite lsum_nil. cbn. rewrite nth_error_app1 by exact Ht. reflexivity.
  - cbn [map concat firstn]. rewrite lsum_cons. rewrite nth_error_app2 by lia.
    rewrite <- (IH i Hi Ht). f_equal. lia.
Qed.

(** The unpacking loop over blocks of the receive buffer is a loop over (source, position, answer). *)
Lemma unpack_loop {S A} (body : nat -> nat -> A -> S -> option S) src (pos : nat -> list nat) (ans : nat -> list A) st :
  (forall s, In s src -> length (pos s) = length (ans s)) ->
  let sizes := map (fun s => length (pos s)) src in
  ofold (fun st i =>
    rank <- nth_error src i ;;
    a <- nth_error (psums sizes) i ;; b <- nth_error (psums sizes) (Datatypes.S i) ;;
    ofold (fun st j => p <- nth_error (concat (map pos src)) j ;; g <- nth_error (concat (map ans src)) j ;; body rank p g st)
          (seq a (b - a)) st) (seq 0 (length src)) st
  = ofold (fun st x => body (fst x) (fst (snd x)) (snd (snd x)) st)
          (concat (map (fun s => map (fun pg => (s, pg)) (combine (pos s) (ans s))) src)) st.
Proof.
  intros Hl sizes. rewrite <- ofold_nested. apply ofold_seq_nth. intros i s st' Hi.
  pose proof (nth_error_bound _ _ _ Hi) as Hlt. rewrite Hi. cbn [obind].
  assert (Hz : length sizes = length src) by (unfold sizes; apply map_length).
  rewrite !psums_nth by lia. cbn [obind].
  assert (Hs : nth_error sizes i = Some (length (pos s))) by (unfold sizes; rewrite nth_error_map_some, Hi; reflexivity).
  rewrite (lsum_firstn_S _ _ _ Hs). replace (lsum (firstn i sizes) + length (pos s) - lsum (firstn i sizes)) with (length (pos s)) by lia.
  rewrite ofold_map. assert (Hl' := Hl). specialize (Hl s (nth_error_In _ _ Hi)).
  set (a := lsum (firstn i sizes)).
  assert (HP : forall t, t < length (pos s) -> nth_error (concat (map pos src)) (a + t) = nth_error (pos s) t)
    by (intros t Ht; apply (nth_concat pos src i s t Hi Ht)).
  assert (HA : forall t, t < length (pos s) -> nth_error (concat (map ans src)) (a + t) = nth_error (ans s) t).
  { intros t Ht. rewrite <- (nth_concat ans src i s t Hi) by lia. f_equal. f_equal. unfold a, sizes.
    do 2 f_equal. apply map_ext_in. intros; now rewrite Hl'. }
  clear - HP HA Hl. revert HP HA. generalize a as n. revert st' Hl. generalize (pos s) as ps, (ans s) as qs.
  induction ps as [|p ps IH]; intros [|q qs] st' Hl n HP HA; cbn in Hl; try discriminate; [reflexivity|].
  cbn [length seq ofold combine fst snd].
  pose proof (HP 0 ltac:(cbn; lia)) as H0. pose proof (HA 0 ltac:(cbn; lia)) as H1. rewrite Nat.add_0_r in H0, H1. cbn in H0, H1.
  rewrite H0, H1. cbn [obind]. destruct (body s p q st'); cbn [obind]; [|reflexivity].
  apply IH; [lia| |]; intros t Ht; rewrite Nat.add_succ_l, <- Nat.add_succ_r; [apply HP|apply HA]; cbn; lia.
Qed.

(** Writing to two arrays at the same positions. *)
Lemma ofold_pair {A B} (ws : list (nat * (A * B))) u v u' v' :
  ofold (fun x pg => upd x (fst pg) (snd pg)) (map (fun w => (fst w, fst (snd w))) ws) u = Some u' ->
  ofold (fun x pg => upd x (fst pg) (snd pg)) (map (fun w => (fst w, snd (snd w))) ws) v = Some v' ->
  ofold (fun '(gi, ow) w => gi' <- upd gi (fst w) (fst (snd w)) ;; ow' <- upd ow (fst w) (snd (snd w)) ;; Some (gi', ow')) ws (u, v) = Some (u', v').
Proof.
  revert u v. induction ws as [|w t IH]; intros u v Hu Hv.
  - cbn in *. congruence.
  - cbn [map ofold fst snd] in Hu, Hv |- *. apply obind_some in Hu as (u1 & E1 & Hu). apply obind_some in Hv as (v1 & E2 & Hv).
    rewrite E1. cbn [obind]. rewrite E2. cbn [obind]. now apply IH.
Qed.

Section Stack.
Variables (P : nat) (Ms : list (world * nat)).
Hypothesis Hok : forall mb, In mb Ms -> maps_ok P (fst mb).

Lemma st_src_in r s : In s (st_src Ms r) <-> exists mb, In mb Ms /\ In s (im_src (fst mb r)).
Proof.
  unfold st_src. rewrite sort_uniq_in, in_concat. split.
  - intros (l & Hl & H). apply in_map_iff in Hl as (mb & <- & Hm). eauto.
  - intros (mb & Hm & H). eexists. split; [apply in_map_iff; eauto|exact H].
Qed.
Lemma st_dest_in r s : In s (st_dest Ms r) <-> exists mb, In mb Ms /\ In s (im_dest (fst mb r)).
Proof.
  unfold st_dest. rewrite sort_uniq_in, in_concat. split.
  - intros (l & Hl & H). apply in_map_iff in Hl as (mb & <- & Hm). eauto.
  - intros (mb & Hm & H). eexists. split; [apply in_map_iff; eauto|exact H].
Qed.

Lemma st_graph : graph_ok P (st_dest Ms) (st_src Ms).
Proof.
  intros r Hr. split; [apply sort_uniq_NoDup|]. split; [apply sort_uniq_NoDup|]. split; intro d.
  - rewrite st_src_in. split.
    + intros (mb & Hm & H). destruct (src_dest_graph P (fst mb) (Hok mb Hm) r Hr) as (_ & _ & G & _). apply G in H as (Hd & H).
      split; [exact Hd|]. apply st_dest_in. eauto.
    + intros (Hd & H). apply st_dest_in in H as (mb & Hm & H). exists mb. split; [exact Hm|].
      destruct (src_dest_graph P (fst mb) (Hok mb Hm) r Hr) as (_ & _ & G & _). apply G. auto.
  - rewrite st_dest_in. split.
    + intros (mb & Hm & H). destruct (src_dest_graph P (fst mb) (Hok mb Hm) r Hr) as (_ & _ & _ & G). apply G in H as (Hd & H).
      split; [exact Hd|]. apply st_src_in. eauto.
    + intros (Hd & H). apply st_src_in in H as (mb & Hm & H). exists mb. split; [exact Hm|].
      destruct (src_dest_graph P (fst mb) (Hok mb Hm) r Hr) as (_ & _ & _ & G). apply G. auto.
Qed.

Section One.
Variables (k : nat) (maps : world) (bs : nat).
Hypothesis Hk : nth_error Ms k = Some (maps, bs).
Let Hm : maps_ok P maps. Proof. apply (Hok (maps, bs)). eapply nth_error_In; eauto. Qed.
Let B q := blk (im_ghosts (maps q)) (im_owners (maps q)) (repeat true (num_ghosts (maps q))).

Lemma st_send_ok q : q < P -> st_send Ms maps q = Some (sendval (st_src Ms q) (B q)).
Proof.
  intro Hq. unfold st_send. apply cgo_send_ok.
  - apply sort_uniq_sorted.
  - apply (mo_len _ _ Hm q Hq).
  - apply repeat_length.
  - intros o Ho. apply st_src_in. exists (maps, bs). split; [eapply nth_error_In; eauto|]. cbn. now apply (src_in P maps Hm).
Qed.

Lemma B_in q s g i : q < P -> In (g, i) (B q s) <-> nth_error (im_ghosts (maps q)) i = Some g /\ nth_error (im_owners (maps q)) i = Some s.
Proof.
  intro Hq. unfold B. rewrite blk_in by (try apply (mo_len _ _ Hm q Hq); apply repeat_length). split; [tauto|]. intros (Hg & Ho).
  split; [exact Hg|]. split; [exact Ho|]. apply nth_error_repeat. eapply nth_error_bound; eauto.
Qed.

Definition st_new (r g : nat) : nat := bs * (g - im_lo (maps r)) + (nth k (st_local_offset Ms r) 0 + st_process_offset Ms r).

Lemma st_back_ok r : r < P ->
  st_back P Ms k maps bs r
  = Some (concat (map (fun q => map (st_new r) (map fst (B q r))) (st_dest Ms r)), map (fun q => length (map fst (B q r))) (st_dest Ms r)).
Proof.
  intro Hr. unfold st_back. rewrite (forward_ok P (st_src Ms) (st_dest Ms) (st_send Ms maps) B st_graph st_send_ok r Hr). cbn [obind].
  rewrite (nth_error_nth_some (st_local_offset Ms r) k 0).
  2:{ unfold st_local_offset. rewrite psums_length, map_length. apply Nat.lt_lt_succ_r. exact (nth_error_bound _ _ _ Hk). }
  cbn [obind]. rewrite (omap_concat _ (st_new r)).
  - cbn [obind]. rewrite map_map. reflexivity.
  - intros l g Hl Hg. apply in_map_iff in Hl as (q & <- & Hq). apply in_map_iff in Hg as ([g' i] & E & Hgi). cbn in E. subst g'.
    assert (HqP : q < P) by (apply (st_graph r Hr) in Hq; tauto).
    apply B_in in Hgi as (Hg & Ho); [|exact HqP]. destruct (mo_owner _ _ Hm q i g r HqP Hg Ho) as (_ & _ & Hw). unfold owns in Hw.
    destruct (Nat.leb_spec (im_lo (maps r)) g); [reflexivity|lia].
Qed.

Definition G q i := nth i (im_ghosts (maps q)) 0.
Definition O q i := nth i (im_owners (maps q)) 0.

Lemma st_one_ok r : r < P ->
  st_one P Ms k maps bs r
  = Some (map (fun x => st_new (O r (x / bs)) (G r (x / bs)) + x mod bs) (seq 0 (bs * num_ghosts (maps r))),
          map (fun x => O r (x / bs)) (seq 0 (bs * num_ghosts (maps r)))).
Proof.
  intro Hr. unfold st_one. rewrite (st_send_ok r Hr). unfold sendval. cbn [obind].
  rewrite (reply_ok P (st_src Ms) (st_dest Ms) (st_send Ms maps) B st_graph st_send_ok (st_back P Ms k maps bs) st_new r Hr).
  2:{ intros s Hs. apply st_back_ok. apply (st_graph r Hr) in Hs. tauto. }
  cbn [obind]. rewrite psums_length, map_length.
  replace (S (length (st_src Ms r)) - 1) with (length (st_src Ms r)) by lia.
  assert (Ez : map (fun s => length (map fst (B r s))) (st_src Ms r) = map (fun s => length (map snd (B r s))) (st_src Ms r))
    by (apply map_ext; intro; now rewrite !map_length).
  rewrite Ez.
  set (body := fun rank p g (st : list nat * list nat) =>
    ofold (fun '(gi, ow) c => gi' <- upd gi (bs * p + c) (g + c) ;; ow' <- upd ow (bs * p + c) rank ;; Some (gi', ow')) (seq 0 bs) st).
  pose proof (unpack_loop body (st_src Ms r) (fun s => map snd (B r s)) (fun s => map (st_new s) (map fst (B r s)))
    (repeat 0 (bs * num_ghosts (maps r)), repeat 0 (bs * num_ghosts (maps r)))) as U.
  cbv zeta in U. unfold body at 1 in U. rewrite U by (intros; now rewrite !map_length). clear U.
  (* one loop over all writes *)
  set (items := concat (map (fun s => map (fun pg => (s, pg)) (combine (map snd (B r s)) (map (st_new s) (map fst (B r s))))) (st_src Ms r))).
  set (ws := concat (map (fun x : nat * (nat * nat) => map (fun c => (bs * fst (snd x) + c, (snd (snd x) + c, fst x))) (seq 0 bs)) items)).
  assert (E : forall st, ofold (fun st x => body (fst x) (fst (snd x)) (snd (snd x)) st) items st
    = ofold (fun '(gi, ow) w => gi' <- upd gi (fst w) (fst (snd w)) ;; ow' <- upd ow (fst w) (snd (snd w)) ;; Some (gi', ow')) ws st).
  { intro st. unfold ws. rewrite <- ofold_nested. apply ofold_ext. intros st' x _. unfold body. rewrite ofold_map. apply ofold_ext. intros [gi ow] c _. reflexivity. }
  rewrite E. clear E.
  assert (Hitems : forall s p g, In (s, (p, g)) items <-> p < num_ghosts (maps r) /\ s = O r p /\ g = st_new s (G r p)).
  { intros s p g. unfold items. rewrite in_concat. split.
    - intros (l & Hl & H). apply in_map_iff in Hl as (s' & <- & Hs). rewrite map_map, combine_map, map_map in H.
      apply in_map_iff in H as ([g' i] & Ee & Hi). cbn in Ee. injection Ee as -> -> <-. apply B_in in Hi as (Hg & Ho); [|exact Hr].
      split; [eapply nth_error_bound; eauto|]. unfold O, G. now rewrite (nth_error_nth _ _ _ Hg), (nth_error_nth _ _ _ Ho).
    - intros (Hp & -> & ->). unfold num_ghosts in Hp.
      exists (map (fun pg => (O r p, pg)) (combine (map snd (B r (O r p))) (map (st_new (O r p)) (map fst (B r (O r p)))))). split.
      + apply in_map_iff. exists (O r p). split; [reflexivity|]. apply st_src_in. exists (maps, bs). split; [eapply nth_error_In; eauto|].
        cbn. apply (src_in P maps Hm); [exact Hr|]. apply nth_In. rewrite (mo_len _ _ Hm r Hr). exact Hp.
      + rewrite map_map, combine_map, map_map. apply in_map_iff. exists (G r p, p). split; [reflexivity|]. apply B_in; [exact Hr|].
        unfold G, O. split; apply nth_error_nth_some; [exact Hp|]. now rewrite (mo_len _ _ Hm r Hr). }
  assert (Hpos : NoDup (map (fun x => fst (snd x)) items)).
  { unfold items. rewrite concat_map, map_map.
    rewrite map_ext with (g := fun s => map snd (B r s)).
    - apply blk_snd_NoDup. apply sort_uniq_NoDup.
    - intro s. rewrite !map_map, combine_map, !map_map. reflexivity. }
  assert (HW : forall w, In w ws -> fst w < bs * num_ghosts (maps r) /\ snd (snd w) = O r (fst w / bs) /\
       fst (snd w) = st_new (O r (fst w / bs)) (G r (fst w / bs)) + fst w mod bs).
  { intros w Hw. apply in_concat in Hw as (l & Hl & Hw). apply in_map_iff in Hl as ([s [p g]] & <- & Hx).
    apply in_map_iff in Hw as (c & <- & Hc). apply in_seq in Hc. apply Hitems in Hx as (Hp & -> & ->). cbn [fst snd].
    assert (Ed : (bs * p + c) / bs = p) by (symmetry; apply (Nat.div_unique _ _ p c); lia).
    assert (Em : (bs * p + c) mod bs = c) by (symmetry; apply (Nat.mod_unique _ _ p c); lia).
    rewrite Ed, Em. split; [nia|split; reflexivity]. }
  assert (Hfst : map fst ws = concat (map (fun p => map (fun c => bs * p + c) (seq 0 bs)) (map (fun x => fst (snd x)) items))).
  { unfold ws. rewrite concat_map, !map_map. f_equal. apply map_ext. intro x. now rewrite map_map. }
  assert (HND : NoDup (map fst ws)).
  { rewrite Hfst. apply NoDup_concat; [exact Hpos| |].
    - intros p _. apply NoDup_map_inj; [apply seq_NoDup|]. intros a b _ _ Ee. lia.
    - intros p p' z _ _ Hz Hz'. apply in_map_iff in Hz as (c & <- & Hc). apply in_map_iff in Hz' as (c' & Ee & Hc').
      apply in_seq in Hc, Hc'. apply (block_inj bs p c p' c'); lia. }
  assert (Hall : forall i, i < bs * num_ghosts (maps r) -> In i (map fst ws)).
  { intros i Hi. rewrite Hfst. apply in_concat. destruct (Nat.eq_dec bs 0) as [E0|N0]; [rewrite E0 in Hi; lia|].
    assert (Hp : i / bs < num_ghosts (maps r)) by (apply Nat.div_lt_upper_bound; lia).
    exists (map (fun c => bs * (i / bs) + c) (seq 0 bs)). split.
    - apply in_map_iff. exists (i / bs). split; [reflexivity|]. apply in_map_iff.
      exists (O r (i / bs), (i / bs, st_new (O r (i / bs)) (G r (i / bs)))). split; [reflexivity|]. apply Hitems. auto.
    - apply in_map_iff. exists (i mod bs). split; [symmetry; apply Nat.div_mod; exact N0|]. apply in_seq. pose proof (Nat.mod_upper_bound i bs N0). lia. }
  apply ofold_pair.
  - apply upd_all_full; [| apply repeat_length | |]; rewrite ?map_map; cbn [fst snd]; try (rewrite (map_ext _ fst) by reflexivity).
    + exact HND.
    + intros i v Hi. apply in_map_iff in Hi as (w & Ee & Hw). injection Ee as <- <-. apply HW in Hw. tauto.
    + exact Hall.
  - apply upd_all_full; [| apply repeat_length | |]; rewrite ?map_map; cbn [fst snd]; try (rewrite (map_ext _ fst) by reflexivity).
    + exact HND.
    + intros i v Hi. apply in_map_iff in Hi as (w & Ee & Hw). injection Ee as <- <-. apply HW in Hw. tauto.
    + exact Hall.
Qed.
End One.
End Stack.

(** ** The numbering *)
Lemma exscan_unique f i j y z : y < f i -> z < f j -> exscan f i + y = exscan f j + z -> i = j /\ y = z.
Proof.
  intros Hy Hz E. pose proof (exscan_S f i). pose proof (exscan_S f j). destruct (Nat.lt_trichotomy i j) as [L|[->|L]].
  - pose proof (exscan_mono f (S i) j L). lia.
  - lia.
  - pose proof (exscan_mono f (S j) i L). lia.
Qed.
Lemma exscan_split f n x : x < exscan f n -> exists i y, i < n /\ y < f i /\ x = exscan f i + y.
Proof.
  induction n as [|n IH]; intro H; [unfold exscan in H; cbn in H; rewrite lsum_nil in H; lia|]. rewrite exscan_S in H.
  destruct (le_lt_dec (exscan f n) x) as [L|L].
  - exists n, (x - exscan f n). lia.
  - destruct (IH L) as (i & y & Hi & Hy & E). exists i, y. split; [lia|auto].
Qed.
Lemma exscan_bound f n i y : i < n -> y < f i -> exscan f i + y < exscan f n.
Proof. intros Hi Hy. pose proof (exscan_mono f (S i) n Hi). rewrite exscan_S in H. lia. Qed.

Lemma lsum_map_add {A} (f g : A -> nat) l : lsum (map (fun x => f x + g x) l) = lsum (map f l) + lsum (map g l).
Proof. induction l as [|x t IH]; [reflexivity|]. cbn [map]. rewrite !lsum_cons, IH. lia. Qed.
Lemma lsum_map_mul {A} (f : A -> nat) c l : lsum (map (fun x => c * f x) l) = c * lsum (map f l).
Proof. induction l as [|x t IH]; cbn [map]; rewrite ?lsum_nil, ?lsum_cons; [lia|]. rewrite IH. lia. Qed.

Section Numbering.
Variables (P : nat) (Ms : list (world * nat)).
Hypothesis Hok : forall mb, In mb Ms -> maps_ok P (fst mb).

Definition fm (o m : nat) : nat := match nth_error Ms m with Some mb => snd mb * size_local (fst mb o) | None => 0 end.

Lemma stack_local_firstn o m : m <= length Ms -> stack_local (firstn m Ms) o = exscan (fm o) m.
Proof.
  intro Hm. unfold stack_local, exscan. f_equal. apply nth_error_ext. intro i. rewrite !nth_error_map_some.
  destruct (le_lt_dec m i) as [L|L].
  - rewrite (proj2 (nth_error_None (firstn m Ms) i)) by (rewrite firstn_length; lia).
    rewrite (proj2 (nth_error_None (seq 0 m) i)) by (rewrite seq_length; lia). reflexivity.
  - rewrite nth_error_seq by exact L. cbn. unfold fm.
    replace (nth_error (firstn m Ms) i) with (nth_error Ms i).
    + destruct (nth_error_lt Ms i) as (mb & Emb); [lia|]. now rewrite Emb.
    + rewrite <- (firstn_skipn m Ms) at 1. rewrite nth_error_app1; [reflexivity|]. rewrite firstn_length. lia.
Qed.
Lemma stack_local_all o : stack_local Ms o = exscan (fm o) (length Ms).
Proof. rewrite <- stack_local_firstn by lia. now rewrite firstn_all. Qed.

Lemma process_offset_eq r : r < P -> st_process_offset Ms r = lsum (map (stack_local Ms) (seq 0 r)).
Proof.
  intro Hr. unfold st_process_offset. clear - Hok Hr. induction Ms as [|mb t IH].
  - cbn. replace (map (stack_local []) (seq 0 r)) with (map (fun q => 0 * q) (seq 0 r)) by (apply map_ext; reflexivity).
    rewrite lsum_map_mul. reflexivity.
  - cbn [map]. rewrite lsum_cons, IH by (intros; apply Hok; now right).
    rewrite (lo_is_sum P (fst mb)) by first [exact Hr | apply Hok; now left].
    rewrite Nat.mul_comm, <- lsum_map_mul, <- lsum_map_add. f_equal.
Qed.

Lemma local_offset_nth r m : m <= length Ms -> nth_error (st_local_offset Ms r) m = Some (stack_local (firstn m Ms) r).
Proof.
  intro Hm. unfold st_local_offset. rewrite psums_nth by (rewrite map_length; exact Hm). unfold stack_local. now rewrite firstn_map.
Qed.

Lemma st_new_stacked k maps bs o g c : nth_error Ms k = Some (maps, bs) -> o < P ->
  st_new Ms k maps bs o g + c = stacked Ms o k g c.
Proof.
  intros Hk Ho. unfold st_new, stacked. rewrite Hk, (process_offset_eq o Ho).
  rewrite (nth_error_nth _ _ _ (local_offset_nth o k ltac:(apply Nat.lt_le_incl; exact (nth_error_bound _ _ _ Hk)))). lia.
Qed.

Lemma stack_ok r : Ms <> [] -> r < P -> exists loff gs os,
  stack_index_maps P Ms r = Some (lsum (map (stack_local Ms) (seq 0 r)), loff, gs, os) /\
  length loff = S (length Ms) /\
  (forall m, m <= length Ms -> nth_error loff m = Some (stack_local (firstn m Ms) r)) /\
  length gs = length Ms /\ length os = length Ms /\
  forall m maps bs, nth_error Ms m = Some (maps, bs) ->
    exists gm om, nth_error gs m = Some gm /\ nth_error os m = Some om /\
      length gm = bs * num_ghosts (maps r) /\ length om = bs * num_ghosts (maps r) /\
      forall k g o c, nth_error (im_ghosts (maps r)) k = Some g -> nth_error (im_owners (maps r)) k = Some o -> c < bs ->
        nth_error gm (bs * k + c) = Some (stacked Ms o m g c) /\ nth_error om (bs * k + c) = Some o.
Proof.
  intros Hne Hr. unfold stack_index_maps. 
  set (res := fun kmb : nat * (world * nat) => let '(k, (maps, bs)) := kmb in
      (map (fun x => st_new Ms k maps bs (O maps r (x / bs)) (G maps r (x / bs)) + x mod bs) (seq 0 (bs * num_ghosts (maps r))),
       map (fun x => O maps r (x / bs)) (seq 0 (bs * num_ghosts (maps r))))).
  assert (Hcm : forall k mb, nth_error Ms k = Some mb -> nth_error (combine (seq 0 (length Ms)) Ms) k = Some (k, mb)).
  { intros k mb Hk. pose proof (nth_error_bound _ _ _ Hk) as Hb.
    assert (Ec : forall (l : list (world * nat)) n j mb, nth_error l j = Some mb -> nth_error (combine (seq n (length l)) l) j = Some (n + j, mb)).
    { induction l as [|x t IH]; intros n [|j] mb' Hj; cbn in Hj; try discriminate.
      - injection Hj as ->. cbn. now rewrite Nat.add_0_r.
      - cbn. rewrite (IH (S n) j mb' Hj). do 2 f_equal. lia. }
    apply (Ec Ms 0 k mb Hk). }
  assert (Hin : forall kmb, In kmb (combine (seq 0 (length Ms)) Ms) -> nth_error Ms (fst kmb) = Some (snd kmb)).
  { intros [k mb] Hkm. apply In_nth_error in Hkm as (j & Hj).
    assert (Hjb : j < length Ms) by (apply nth_error_bound in Hj; rewrite combine_length, seq_length in Hj; lia).
    destruct (nth_error_lt Ms j Hjb) as (mb' & E). rewrite (Hcm j mb' E) in Hj. injection Hj as <- <-. exact E. }
  assert (E : omap (fun kmb : nat * ((nat -> imap) * nat) => st_one P Ms (fst kmb) (fst (snd kmb)) (snd (snd kmb)) r)
               (combine (seq 0 (length Ms)) Ms) = Some (map res (combine (seq 0 (length Ms)) Ms))).
  { apply omap_map. intros [k [maps bs]] Hkm. apply Hin in Hkm. cbn [fst snd] in *. now rewrite (st_one_ok P Ms Hok k maps bs Hkm r Hr). }
  assert (Hlen : length (combine (seq 0 (length Ms)) Ms) = length Ms) by (rewrite combine_length, seq_length; lia).
  match goal with |- context [match Ms with [] => None | _ :: _ => ?X end] =>
    replace (match Ms with [] => None | _ :: _ => X end) with X by (destruct Ms; [contradiction|reflexivity]) end.
  rewrite E. cbn [obind]. rewrite (process_offset_eq r Hr).
  exists (st_local_offset Ms r), (map fst (map res (combine (seq 0 (length Ms)) Ms))), (map snd (map res (combine (seq 0 (length Ms)) Ms))).
  split; [reflexivity|]. split; [unfold st_local_offset; now rewrite psums_length, map_length|].
  split; [apply local_offset_nth|]. rewrite !map_length. split; [exact Hlen|]. split; [exact Hlen|].
  intros m maps bs Hm.
  exists (fst (res (m, (maps, bs)))), (snd (res (m, (maps, bs)))). rewrite !nth_error_map_some, (Hcm m _ Hm). cbn [option_map].
  split; [reflexivity|]. split; [reflexivity|]. cbn [res fst snd]. rewrite !map_length, !seq_length. split; [reflexivity|]. split; [reflexivity|].
  intros k g o c Hg Ho Hc. pose proof (nth_error_bound _ _ _ Hg) as Hkb. fold (num_ghosts (maps r)) in Hkb.
  assert (Hb : bs * k + c < bs * num_ghosts (maps r)) by nia.
  rewrite !nth_error_map_some, nth_error_seq by exact Hb. cbn [option_map Nat.add].
  assert (Ed : (bs * k + c) / bs = k) by (symmetry; apply (Nat.div_unique _ _ k c); lia).
  assert (Emo : (bs * k + c) mod bs = c) by (symmetry; apply (Nat.mod_unique _ _ k c); lia).
  rewrite Ed, Emo. unfold O, G. rewrite (nth_error_nth _ _ _ Hg), (nth_error_nth _ _ _ Ho). split; [|reflexivity]. f_equal.
  apply st_new_stacked; [exact Hm|]. assert (Hmk : maps_ok P maps) by (apply (Hok (maps, bs)); eapply nth_error_In; eauto).
  now destruct (mo_owner _ _ Hmk r k g o Hr Hg Ho).
Qed.

Lemma stacked_shape o m g c : stack_entry P Ms o m g c -> exists maps bs, nth_error Ms m = Some (maps, bs) /\ o < P /\ owns (maps o) g /\ c < bs /\
  stacked Ms o m g c = exscan (stack_local Ms) o + (exscan (fm o) m + (bs * (g - im_lo (maps o)) + c)) /\
  bs * (g - im_lo (maps o)) + c < fm o m /\ exscan (fm o) m + (bs * (g - im_lo (maps o)) + c) < stack_local Ms o.
Proof.
  intros (maps & bs & Hm & Ho & Hw & Hc). exists maps, bs. pose proof (nth_error_bound _ _ _ Hm) as Hb.
  assert (Hf : bs * (g - im_lo (maps o)) + c < fm o m).
  { unfold fm. rewrite Hm. cbn [fst snd]. unfold owns in Hw. unfold size_local. nia. }
  repeat split; auto; try apply Hw.
  - unfold stacked. rewrite Hm, stack_local_firstn by lia. unfold exscan. lia.
  - rewrite stack_local_all. now apply exscan_bound.
Qed.

Lemma stacked_inj o m g c o' m' g' c' : stack_entry P Ms o m g c -> stack_entry P Ms o' m' g' c' ->
  stacked Ms o m g c = stacked Ms o' m' g' c' -> m = m' /\ g = g' /\ c = c' /\ o = o'.
Proof.
  intros H H' E. destruct (stacked_shape _ _ _ _ H) as (maps & bs & Hm & Ho & Hw & Hc & Es & Hf & Hl).
  destruct (stacked_shape _ _ _ _ H') as (maps' & bs' & Hm' & Ho' & Hw' & Hc' & Es' & Hf' & Hl').
  rewrite Es, Es' in E. destruct (exscan_unique _ _ _ _ _ Hl Hl' E) as (<- & E1).
  destruct (exscan_unique _ _ _ _ _ Hf Hf' E1) as (<- & E2). rewrite Hm in Hm'. injection Hm' as <- <-.
  destruct (block_inj bs (g - im_lo (maps o)) c (g' - im_lo (maps o)) c') as (E3 & E4); [lia|lia|lia|].
  unfold owns in *. repeat split; auto; lia.
Qed.

Lemma stacked_lt o m g c : stack_entry P Ms o m g c -> stacked Ms o m g c < lsum (map (stack_local Ms) (seq 0 P)).
Proof.
  intro H. destruct (stacked_shape _ _ _ _ H) as (maps & bs & Hm & Ho & Hw & Hc & Es & Hf & Hl). rewrite Es. now apply (exscan_bound (stack_local Ms) P).
Qed.

Lemma stacked_onto x : x < lsum (map (stack_local Ms) (seq 0 P)) -> exists o m g c, stack_entry P Ms o m g c /\ x = stacked Ms o m g c.
Proof.
  intro H. destruct (exscan_split (stack_local Ms) P x H) as (o & y & Ho & Hy & ->). rewrite stack_local_all in Hy.
  destruct (exscan_split (fm o) _ y Hy) as (m & z & Hm & Hz & ->). unfold fm in Hz.
  destruct (nth_error Ms m) as [[maps bs]|] eqn:Em; [|lia]. cbn [fst snd] in Hz.
  assert (Hbs : bs <> 0) by (intros ->; lia).
  exists o, m, (im_lo (maps o) + z / bs), (z mod bs).
  assert (Hd : z / bs < size_local (maps o)) by (apply Nat.div_lt_upper_bound; lia).
  assert (He : stack_entry P Ms o m (im_lo (maps o) + z / bs) (z mod bs)).
  { exists maps, bs. split; [exact Em|]. split; [exact Ho|]. split; [unfold owns, size_local in *; lia|]. now apply Nat.mod_upper_bound. }
  split; [exact He|]. unfold stacked. rewrite Em. rewrite stack_local_firstn by lia.
  replace (im_lo (maps o) + z / bs - im_lo (maps o)) with (z / bs) by lia.
  unfold exscan. rewrite (Nat.div_mod z bs Hbs) at 1. lia.
Qed.
End Numbering.
