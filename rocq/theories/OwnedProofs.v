From Verif Require Import Base BaseProofs BucketProofs Algo AlgoProofs Nbx World WorldProofs
  IndexMap IndexMapSpec IndexMapProofs ImSharedProofs ScattererProofs SubMap.

Lemma skipn_prefix_all {A} (p : A -> bool) l : (forall x, In x l -> p x = true) -> skipn (prefix_len p l) l = [].
Proof.
  induction l as [|x t IH]; intro H; [reflexivity|]. cbn [prefix_len]. rewrite (H x) by now left. cbn [skipn]. apply IH.
  intros; apply H; now right.
Qed.

Lemma coi_sizes_groups ks (b : nat -> list nat) : StronglySorted lt ks ->
  coi_sizes ks (concat (map (fun k => pack k (b k)) ks)) = map (fun k => length (b k)) ks.
Proof.
  induction 1 as [|k ks Hs IH Hk]; [reflexivity|]. cbn [map concat coi_sizes].
  rewrite Forall_forall in Hk. set (rest := concat (map (fun k => pack k (b k)) ks)) in *.
  assert (Hr : forall p, In p rest -> k < fst p) by (intros p Hp; apply Hk, (in_groups _ _ _ Hp)).
  destruct (b k) as [|v t] eqn:E.
  - cbn [pack map app]. rewrite skipn_prefix_all.
    + cbn [prefix_len Nat.eqb length]. f_equal. exact IH.
    + intros p Hp. specialize (Hr p Hp). apply negb_true_iff, Nat.eqb_neq. lia.
  - assert (Hb : skipn (prefix_len (fun p => negb (fst p =? k)) (pack k (v :: t) ++ rest)) (pack k (v :: t) ++ rest) = pack k (v :: t) ++ rest).
    { cbn [pack map app prefix_len fst]. rewrite Nat.eqb_refl. reflexivity. }
    rewrite Hb. assert (Hn : prefix_len (fun p => fst p <=? k) (pack k (v :: t) ++ rest) = length (v :: t)).
    { rewrite prefix_len_app.
      - unfold pack. rewrite map_length. destruct rest as [|p l]; [cbn; lia|].
        rewrite prefix_len_stop; [lia|]. apply Nat.leb_gt. apply Hr. now left.
      - intros p Hp. apply in_map_iff in Hp as (y & <- & _). apply Nat.leb_refl. }
    rewrite Hn, skipn_pack. cbn [length Nat.eqb]. f_equal. exact IH.
Qed.

Lemma lower_bound_split l x : StronglySorted le l ->
  firstn (lower_bound l x) l = filter (fun y => y <? x) l /\
  skipn (lower_bound l x) l = filter (fun y => negb (y <? x)) l.
Proof.
  unfold lower_bound, lower_bound_by. induction 1 as [|y t Hs IH Hy]; [split; reflexivity|]. cbn [prefix_len filter].
  destruct (y <? x) eqn:E; cbn [negb firstn skipn].
  - destruct IH as (-> & ->). split; reflexivity.
  - rewrite Forall_forall in Hy. apply Nat.ltb_ge in E. split.
    + symmetry. apply filter_none. intros z Hz. specialize (Hy z Hz). apply Nat.ltb_ge. lia.
    + f_equal. symmetry. apply filter_all. intros z Hz. specialize (Hy z Hz). apply negb_true_iff, Nat.ltb_ge. lia.
Qed.

Section Owned.
Variables (P : nat) (maps : nat -> imap) (indices : nat -> list nat).
Hypothesis Hok : maps_ok P maps.
Hypothesis Hind : forall r, r < P -> StronglySorted le (indices r) /\
  forall i, In i (indices r) -> i < size_local (maps r) + num_ghosts (maps r).

Definition o2g (q : nat) : list (nat * nat) :=
  map (fun idx => (nth (idx - size_local (maps q)) (im_owners (maps q)) 0, nth (idx - size_local (maps q)) (im_ghosts (maps q)) 0))
      (filter (fun y => negb (y <? size_local (maps q))) (indices q)).

Lemma o2g_in q o g : q < P -> In (o, g) (o2g q) <->
  exists k, In (size_local (maps q) + k) (indices q) /\ nth_error (im_ghosts (maps q)) k = Some g /\ nth_error (im_owners (maps q)) k = Some o.
Proof.
  intro Hq. unfold o2g. rewrite in_map_iff. split.
  - intros (idx & E & Hi). apply filter_In in Hi as (Hi & Hge). apply negb_true_iff, Nat.ltb_ge in Hge.
    pose proof (proj2 (Hind q Hq) idx Hi) as Hlt. injection E as <- <-. exists (idx - size_local (maps q)).
    replace (size_local (maps q) + (idx - size_local (maps q))) with idx by lia. split; [exact Hi|]. unfold num_ghosts in Hlt. split.
    + apply nth_error_nth_some. lia.
    + apply nth_error_nth_some. rewrite (mo_len _ _ Hok q Hq). lia.
  - intros (k & Hi & Hg & Ho). exists (size_local (maps q) + k). split.
    + replace (size_local (maps q) + k - size_local (maps q)) with k by lia. now rewrite (nth_error_nth _ _ _ Hg), (nth_error_nth _ _ _ Ho).
    + apply filter_In. split; [exact Hi|]. apply negb_true_iff, Nat.ltb_ge. lia.
Qed.

Lemma coi_send_ok q : q < P -> let b := fun s => isort Nat.leb (vals s (o2g q)) in
  coi_send maps indices q = Some (concat (map b (im_src (maps q))),
    (map (fun s => length (b s)) (im_src (maps q)), psums (map (fun s => length (b s)) (im_src (maps q))))).
Proof.
  intros Hq b. unfold coi_send. destruct (Hind q Hq) as (Hs & Hlt).
  rewrite (proj2 (lower_bound_split _ (size_local (maps q)) Hs)).
  rewrite omap_map with (g := fun idx => (nth (idx - size_local (maps q)) (im_owners (maps q)) 0, nth (idx - size_local (maps q)) (im_ghosts (maps q)) 0)).
  - cbn [obind]. fold (o2g q). rewrite (psort_groups (im_src (maps q))).
    + fold b. rewrite (coi_sizes_groups _ b) by apply (mo_src _ _ Hok q Hq).
      assert (E : map snd (concat (map (fun k => pack k (b k)) (im_src (maps q)))) = concat (map b (im_src (maps q)))).
      { rewrite concat_map, map_map. f_equal. apply map_ext. intro k. unfold pack. rewrite map_map. apply map_id. }
      unfold b in E at 1. rewrite E. reflexivity.
    + apply (mo_src _ _ Hok q Hq).
    + intros [o g] Hp. apply o2g_in in Hp as (k & _ & _ & Ho); [|exact Hq]. apply (src_in P maps Hok); [exact Hq|]. eapply nth_error_In; eauto.
  - intros idx Hi. apply filter_In in Hi as (Hi & Hge). apply negb_true_iff, Nat.ltb_ge in Hge. specialize (Hlt idx Hi). unfold num_ghosts in Hlt.
    rewrite (nth_error_nth_some (im_owners (maps q)) _ 0) by (rewrite (mo_len _ _ Hok q Hq); lia).
    rewrite (nth_error_nth_some (im_ghosts (maps q)) _ 0) by lia. reflexivity.
Qed.

Lemma owned_indices_ok r : r < P -> exists l, compute_owned_indices P maps indices r = Some l /\ StronglySorted lt l /\
  forall i, In i l <-> i < size_local (maps r) /\
    (In i (indices r) \/ exists q k, q < P /\ nth_error (im_ghosts (maps q)) k = Some (im_lo (maps r) + i) /\
                                     In (size_local (maps q) + k) (indices q)).
Proof.
  intro Hr. unfold compute_owned_indices.
  rewrite (exchange_spec P _ _ _ (fun q s => isort Nat.leb (vals s (o2g q))) r (src_dest_graph P maps Hok) Hr).
  2:{ intros q Hq. apply coi_send_ok. apply (dest_in P maps Hok) in Hq; [apply Hq|exact Hr]. }
  cbn [obind]. set (recv := concat _).
  assert (Hrecv : forall g, In g recv <-> exists q k, q < P /\ nth_error (im_ghosts (maps q)) k = Some g /\
                                     In (size_local (maps q) + k) (indices q) /\ owns (maps r) g).
  { intro g. unfold recv. rewrite in_concat. split.
    - intros (l & Hl & Hg). apply in_map_iff in Hl as (q & <- & Hq). apply (dest_in P maps Hok) in Hq as (Hq & _); [|exact Hr].
      apply isort_in, vals_in, o2g_in in Hg as (k & Hi & Hg & Ho); [|exact Hq].
      exists q, k. repeat split; auto. apply (mo_owner _ _ Hok q k g r Hq Hg Ho). apply (mo_owner _ _ Hok q k g r Hq Hg Ho).
    - intros (q & k & Hq & Hg & Hi & Hw).
      destruct (nth_error_lt (im_owners (maps q)) k) as (o & Ho); [rewrite (mo_len _ _ Hok q Hq); eapply nth_error_bound; eauto|].
      destruct (mo_owner _ _ Hok q k g o Hq Hg Ho) as (HoP & _ & Hwo).
      assert (o = r) by (eapply (owner_unique P maps Hok); eauto). subst o.
      exists (isort Nat.leb (vals r (o2g q))). split.
      + apply in_map_iff. exists q. split; [reflexivity|]. apply (dest_in P maps Hok); [exact Hr|]. split; [exact Hq|]. eapply nth_error_In; eauto.
      + apply isort_in, vals_in, o2g_in; eauto. }
  rewrite omap_map with (g := fun idx => idx - im_lo (maps r)).
  - cbn [obind]. eexists. split; [reflexivity|]. split; [apply sort_uniq_sorted|]. intro i.
    rewrite sort_uniq_in, in_app_iff. destruct (Hind r Hr) as (Hs & _). rewrite (proj1 (lower_bound_split _ _ Hs)), filter_In, in_map_iff, Nat.ltb_lt. split.
    + intros [(Hi & Hlt)|(g & <- & Hg)]; [split; [exact Hlt|now left]|]. apply sort_uniq_in, Hrecv in Hg as (q & k & Hq & Hg & Hi & Hw).
      unfold owns in Hw. unfold size_local. split; [lia|]. right. exists q, k. split; [exact Hq|]. split; [|exact Hi].
      rewrite Hg. f_equal. lia.
    + intros (Hlt & [Hi|(q & k & Hq & Hg & Hi)]); [left; auto|]. right. exists (im_lo (maps r) + i). split; [lia|].
      apply sort_uniq_in, Hrecv. exists q, k. unfold owns. unfold size_local in Hlt. repeat split; auto; lia.
  - intros g Hg. apply sort_uniq_in, Hrecv in Hg as (_ & _ & _ & _ & _ & Hw). unfold owns in Hw.
    destruct (Nat.leb_spec (im_lo (maps r)) g); [|lia]. destruct (Nat.ltb_spec g (im_hi (maps r))); [reflexivity|lia].
Qed.
End Owned.
