(** Lemmas about compute_submap_indices. *)
From Verif Require Import Base BaseProofs Algo AlgoProofs World WorldProofs
  IndexMap IndexMapSpec IndexMapProofs ImSharedProofs ScattererProofs SubMap SubMapSpec RoundTrip.

Lemma marked_spec l n : (forall i, In i l -> i < n) ->
  ofold (fun v i => upd v i true) l (repeat false n) = Some (map (fun i => mem i l) (seq 0 n)).
Proof.
  intro H. destruct (ofold_prefix_ind (fun v i => upd v i true)
    (fun p v => length v = n /\ forall i, i < n -> nth_error v i = Some (mem i p)) l (repeat false n)) as (v & Ev & Hl & Hv).
  - split; [apply repeat_length|]. intros i Hi. now apply nth_error_repeat.
  - intros p a q v El (Hl & Hv). assert (Ha : a < n) by (apply H; rewrite El; apply in_or_app; right; now left).
    destruct (upd_some v a true) as (v' & Ev); [lia|]. exists v'. split; [exact Ev|]. split; [now rewrite (upd_length _ _ _ _ Ev)|].
    intros i Hi. rewrite (upd_nth _ _ _ _ _ Ev). unfold mem. rewrite existsb_app. cbn [existsb]. rewrite orb_false_r.
    destruct (Nat.eqb_spec a i) as [->|N]; [now rewrite Nat.eqb_refl, orb_true_r|].
    rewrite (Hv i Hi). f_equal. unfold mem. destruct (Nat.eqb_spec i a); [congruence|]. now rewrite orb_false_r.
  - rewrite Ev. f_equal. apply nth_error_ext. intro i. rewrite nth_error_map_some. destruct (le_lt_dec n i) as [L|L].
    + rewrite (proj2 (nth_error_None v i)) by lia. rewrite (proj2 (nth_error_None (seq 0 n) i)) by (rewrite seq_length; lia). reflexivity.
    + rewrite nth_error_seq by exact L. now rewrite (Hv i L).
Qed.

(** The first pair with a given key in a sorted list. *)
Lemma first_pair l i o : StronglySorted (fun x y => pair_leb x y = true) l -> In (i, o) l ->
  (forall o', In (i, o') l -> o <= o') ->
  sub_owner l i = Some o /\
  exists tl, skipn (lower_bound_by fst l i) l = (i, o) :: tl.
Proof.
  induction 1 as [|[a b] t Hs IH Hx]; intros Hin Hmin; [destruct Hin|].
  unfold sub_owner, lower_bound_by. cbn [prefix_len fst]. destruct (Nat.ltb_spec a i) as [L|L].
  - destruct Hin as [E|Hin]; [injection E as -> ->; lia|]. cbn [nth_error skipn].
    apply IH; [exact Hin|]. intros o' Ho. apply Hmin. now right.
  - assert (E : a = i /\ b = o).
    { destruct Hin as [E|Hin]; [now injection E|]. rewrite Forall_forall in Hx. pose proof (Hx _ Hin) as H. apply pair_leb_iff in H. cbn in H.
      assert (a = i) by lia. subst a. split; [reflexivity|]. specialize (Hmin b (or_introl eq_refl)). lia. }
    destruct E as (-> & ->). cbn [nth_error skipn]. rewrite Nat.eqb_refl. split; [reflexivity|]. eauto.
Qed.

Lemma equal_range l i (x : nat) : StronglySorted (fun x y => pair_leb x y = true) l ->
  let it := skipn (lower_bound_by fst l i) l in
  map snd (firstn (prefix_len (fun e => fst e <=? i) it) it) = vals i l.
Proof.
  unfold lower_bound_by, vals. induction 1 as [|[a b] t Hs IH Hx]; [reflexivity|]. cbv zeta in *. cbn [prefix_len fst filter].
  destruct (Nat.ltb_spec a i) as [L|L]; cbn [skipn].
  - destruct (Nat.eqb_spec a i); [lia|]. exact IH.
  - assert (G : forall t, StronglySorted (fun x y => pair_leb x y = true) t -> Forall (fun y => pair_leb (a, b) y = true) t ->
        firstn (prefix_len (fun e : nat * nat => fst e <=? i) t) t = filter (fun kv => fst kv =? i) t).
    { clear - L. induction 1 as [|[c d] t Hs IH Hx]; intro Hf; [reflexivity|]. cbn [prefix_len fst filter]. inversion_clear Hf as [|? ? H1 H2].
      apply pair_leb_iff in H1. cbn in H1. destruct (Nat.leb_spec c i), (Nat.eqb_spec c i); try lia; cbn [firstn].
      - f_equal. now apply IH.
      - symmetry. apply filter_none. intros y Hy. rewrite Forall_forall in Hx. specialize (Hx y Hy). apply pair_leb_iff in Hx. cbn in Hx.
        apply Nat.eqb_neq. lia. }
    pose proof (G ((a, b) :: t)) as G'. cbn [filter fst] in G'. rewrite G'.
    + reflexivity.
    + now constructor.
    + constructor; [|exact Hx]. apply pair_leb_iff. cbn. lia.
Qed.

Section Sub.
Variables (P : nat) (maps : nat -> imap) (indices : nat -> list nat) (preserve allow : bool).
Hypothesis Hok : maps_ok P maps.
Hypothesis Hind : forall r, r < P -> StronglySorted lt (indices r) /\
  forall i, In i (indices r) -> i < size_local (maps r) + num_ghosts (maps r).

Notation sl q := (size_local (maps q)).
Notation src q := (im_src (maps q)).
Notation dest q := (im_dest (maps q)).

Definition inm q := map (fun i => mem i (indices q)) (seq 0 (sl q + num_ghosts (maps q))).
Lemma inm_ok q : q < P -> is_in_submap maps indices q = Some (inm q).
Proof. intro Hq. unfold is_in_submap. apply marked_spec. apply (Hind q Hq). Qed.
Lemma inm_nth q i : i < sl q + num_ghosts (maps q) -> nth_error (inm q) i = Some (mem i (indices q)).
Proof. intro H. unfold inm. rewrite nth_error_map_some, nth_error_seq by exact H. reflexivity. Qed.

(** What [q] sends to [s]. *)
Definition SB q s := blk (im_ghosts (maps q)) (im_owners (maps q)) (skipn (sl q) (inm q)) s.

Lemma nth_skip {A} n (l : list A) i : nth_error (skipn n l) i = nth_error l (n + i).
Proof. revert n. induction l as [|x t IH]; intros [|n]; cbn; try reflexivity; [now destruct i|apply IH]. Qed.

Lemma SB_in q s g i : q < P -> In (g, i) (SB q s) <->
  nth_error (im_ghosts (maps q)) i = Some g /\ nth_error (im_owners (maps q)) i = Some s /\ In (sl q + i) (indices q).
Proof.
  intro Hq. unfold SB. rewrite blk_in; [|apply (mo_len _ _ Hok q Hq)|].
  - rewrite nth_skip. split; intros (Hg & Ho & Hi); (split; [exact Hg|split; [exact Ho|]]).
    + pose proof (nth_error_bound _ _ _ Hg). rewrite inm_nth in Hi by (unfold num_ghosts; lia). injection Hi as Hi. now apply mem_iff.
    + pose proof (nth_error_bound _ _ _ Hg). rewrite inm_nth by (unfold num_ghosts; lia). f_equal. now apply mem_iff.
  - unfold inm. rewrite skipn_length, map_length, seq_length. unfold num_ghosts. lia.
Qed.

Lemma sub_send_ok q : q < P -> sub_send maps indices q = Some (sendval (src q) (SB q)).
Proof.
  intro Hq. unfold sub_send. rewrite (inm_ok q Hq). cbn [obind]. apply cgo_send_ok.
  - apply (mo_src _ _ Hok q Hq).
  - apply (mo_len _ _ Hok q Hq).
  - unfold inm. rewrite skipn_length, map_length, seq_length. unfold num_ghosts. lia.
  - intros o Ho. now apply (src_in P maps Hok).
Qed.

(** The indices [d] sent to [r]. *)
Definition RX d r := map fst (SB d r).
Lemma RX_in d r g : d < P -> r < P -> In g (RX d r) <-> d <> r /\ owns (maps r) g /\ marks maps indices d g.
Proof.
  intros Hd Hr. unfold RX. rewrite in_map_iff. split.
  - intros ([g' i] & E & H). cbn in E. subst g'. apply SB_in in H as (Hg & Ho & Hi); [|exact Hd].
    destruct (mo_owner _ _ Hok d i g r Hd Hg Ho) as (_ & N & Hw). split; [congruence|]. split; [exact Hw|].
    exists (sl d + i). split; [exact Hi|]. unfold local_to_global. destruct (Nat.ltb_spec (sl d + i) (sl d)); [lia|].
    rewrite <- Hg. f_equal. lia.
  - intros (N & Hw & i & Hi & Hl). unfold local_to_global in Hl. destruct (Nat.ltb_spec i (sl d)) as [L|L].
    + exfalso. injection Hl as <-. apply N. apply (owner_unique P maps Hok d r (im_lo (maps d) + i)); auto.
      unfold owns. unfold size_local in L. lia.
    + exists (g, i - sl d). split; [reflexivity|]. apply SB_in; [exact Hd|]. split; [exact Hl|].
      replace (sl d + (i - sl d)) with i by lia. split; [|exact Hi].
      destruct (nth_error_lt (im_owners (maps d)) (i - sl d)) as (o & Ho); [rewrite (mo_len _ _ Hok d Hd); eapply nth_error_bound; eauto|].
      rewrite Ho. f_equal. destruct (mo_owner _ _ Hok d _ g o Hd Hl Ho) as (HoP & _ & Hw'). eapply owner_unique; eauto.
Qed.
Lemma RX_NoDup d r : d < P -> NoDup (RX d r).
Proof.
  intro Hd. unfold RX, SB, blk. rewrite map_map. cbn [fst]. apply NoDup_map_inj; [apply NoDup_filter, seq_NoDup|].
  intros a b Ha Hb E. apply filter_In in Ha as (Ha & _). apply filter_In in Hb as (Hb & _). apply in_seq in Ha, Hb.
  apply (proj1 (NoDup_nth (im_ghosts (maps d)) 0) (mo_once _ _ Hok d Hd)); auto; lia.
Qed.
Lemma RX_dest d r g : d < P -> r < P -> In g (RX d r) -> In d (dest r).
Proof.
  intros Hd Hr H. apply (dest_in P maps Hok); [exact Hr|]. split; [exact Hd|]. unfold RX in H. apply in_map_iff in H as ([g' i] & _ & H).
  apply SB_in in H as (_ & Ho & _); [|exact Hd]. eapply nth_error_In; eauto.
Qed.

Lemma sub_recv_ok r : r < P -> sub_recv P maps indices r
  = Some (concat (map (fun q => RX q r) (dest r)), map (fun q => length (RX q r)) (dest r)).
Proof.
  intro Hr. apply (forward_ok P (fun q => src q) (fun q => dest q) (sub_send maps indices) SB (src_dest_graph P maps Hok) sub_send_ok r Hr).
Qed.

Lemma sub_blocks_ok r : r < P -> sub_blocks P maps indices r = Some (map (fun q => (q, RX q r)) (dest r)).
Proof.
  intro Hr. unfold sub_blocks. rewrite (sub_recv_ok r Hr). cbn [obind]. rewrite map_length.
  rewrite omap_map with (g := fun i => (nth i (dest r) 0, RX (nth i (dest r) 0) r)).
  - f_equal. apply (map_seq_nth (fun i => (nth i (dest r) 0, RX (nth i (dest r) 0) r)) (fun q => (q, RX q r))). intros k s Hk. now rewrite (nth_error_nth _ _ _ Hk).
  - intros i Hi. apply in_seq in Hi. rewrite (nth_error_nth_some (dest r) i 0) by lia. cbn [obind].
    pose proof (slice_at_concat (map (fun q => RX q r) (dest r)) i (RX (nth i (dest r) 0) r)) as S.
    rewrite map_map in S. rewrite S; [reflexivity|]. rewrite nth_error_map_some, (nth_error_nth_some (dest r) i 0) by lia. reflexivity.
Qed.

Definition keeps r g := mem (g - im_lo (maps r)) (indices r).
Lemma keeps_iff r g : r < P -> owns (maps r) g -> keeps r g = true <-> marks maps indices r g.
Proof.
  intros Hr Hw. unfold keeps. rewrite mem_iff. unfold owns in Hw. split.
  - intro H. exists (g - im_lo (maps r)). split; [exact H|]. unfold local_to_global, size_local.
    destruct (Nat.ltb_spec (g - im_lo (maps r)) (im_hi (maps r) - im_lo (maps r))); [|lia]. f_equal. lia.
  - intros (i & Hi & E). unfold local_to_global in E. destruct (Nat.ltb_spec i (sl r)).
    + injection E as <-. now replace (im_lo (maps r) + i - im_lo (maps r)) with i by lia.
    + exfalso. apply nth_error_In in E. apply (ghost_not_owned P maps Hok r g Hr E). exact Hw.
Qed.

Definition ents r := concat (map (fun q => map (fun idx => (q, idx, keeps r idx)) (RX q r)) (dest r)).
Lemma ents_in r q g b : r < P -> In (q, g, b) (ents r) <-> q < P /\ In g (RX q r) /\ b = keeps r g.
Proof.
  intro Hr. unfold ents. rewrite in_concat. split.
  - intros (l & Hl & H). apply in_map_iff in Hl as (d & <- & Hd). apply in_map_iff in H as (x & E & Hx). injection E as -> -> <-.
    apply (dest_in P maps Hok) in Hd as (Hd & _); auto.
  - intros (Hq & Hg & ->). exists (map (fun idx => (q, idx, keeps r idx)) (RX q r)). split.
    + apply in_map_iff. exists q. split; [reflexivity|]. eapply RX_dest; eauto.
    + apply in_map_iff. eauto.
Qed.

Definition poss r := isort pair_leb (map (fun '(d, idx, b) => if b : bool then (idx, r) else (idx, d)) (ents r)).
Definition dest0 r := concat (map (fun '(d, idx, b) => if b : bool then [d] else @nil nat) (ents r)).

Lemma sub_possible_eq r : r < P -> sub_possible P maps indices allow r =
  if negb allow && existsb (fun e => negb (snd e)) (ents r) then None else Some (poss r, dest0 r).
Proof.
  intro Hr. unfold sub_possible. rewrite (inm_ok r Hr), (sub_blocks_ok r Hr). cbn [obind].
  rewrite omap_map with (g := fun db : nat * list nat => map (fun idx => (fst db, idx, keeps r idx)) (snd db)).
  - cbn [obind]. rewrite map_map. cbn [fst snd]. fold (ents r). reflexivity.
  - intros [d l] Hd. apply in_map_iff in Hd as (d' & E & Hd). injection E as -> <-. cbn [fst snd].
    apply omap_map. intros idx Hi. apply (dest_in P maps Hok) in Hd as (HdP & _); [|exact Hr].
    apply RX_in in Hi as (_ & Hw & _); auto. unfold owns in Hw.
    destruct (Nat.leb_spec (im_lo (maps r)) idx); [|lia]. destruct (Nat.ltb_spec idx (im_hi (maps r))); [|lia]. cbn [andb].
    rewrite inm_nth by (unfold size_local; lia). reflexivity.
Qed.

(** Old owners keep what they mark, or the change is allowed. *)
Hypothesis Hallow : allow = true \/ forall r q g, r < P -> q < P -> owns (maps r) g -> marks maps indices q g -> marks maps indices r g.

Lemma sub_possible_ok r : r < P -> sub_possible P maps indices allow r = Some (poss r, dest0 r).
Proof.
  intro Hr. rewrite (sub_possible_eq r Hr). destruct Hallow as [->|H]; [reflexivity|].
  replace (existsb (fun e => negb (snd e)) (ents r)) with false; [now rewrite andb_false_r|]. symmetry.
  destruct (existsb _ _) eqn:E; [|reflexivity]. apply existsb_exists in E as ([[q g] b] & He & Hb). cbn in Hb.
  apply (ents_in r q g b Hr) in He as (Hq & Hg & ->). apply RX_in in Hg as (_ & Hw & Hm); auto.
  apply negb_true_iff in Hb. rewrite (proj2 (keeps_iff r g Hr Hw)) in Hb; [discriminate|]. eauto.
Qed.

(** The new owner of an index owned by [r] that somebody else marks. *)
Definition own r g := if keeps r g then r else hd 0 (filter (fun q => mem g (RX q r)) (dest r)).

Lemma hd_sorted l : StronglySorted lt l -> l <> [] -> In (hd 0 l) l /\ forall x, In x l -> hd 0 l <= x.
Proof.
  intros H Hn. destruct H as [|x t Ht Hx]; [contradiction|]. cbn. split; [now left|]. intros y [->|Hy]; [lia|].
  rewrite Forall_forall in Hx. specialize (Hx y Hy). lia.
Qed.

Lemma own_spec r d g : r < P -> d < P -> In g (RX d r) ->
  (keeps r g = true /\ own r g = r) \/
  (keeps r g = false /\ own r g < P /\ In g (RX (own r g) r) /\ forall q, q < P -> In g (RX q r) -> own r g <= q).
Proof. clear Hallow.
  intros Hr Hd Hg. unfold own. destruct (keeps r g); [left; auto|right]. split; [reflexivity|].
  destruct (hd_sorted (filter (fun q => mem g (RX q r)) (dest r))) as (H1 & H2).
  - apply SS_filter. apply (mo_dest _ _ Hok r Hr).
  - intro E. assert (In d (filter (fun q => mem g (RX q r)) (dest r))) as H by (apply filter_In; split; [eapply RX_dest; eauto|now apply mem_iff]).
    rewrite E in H. destruct H.
  - apply filter_In in H1 as (H1 & H3). apply mem_iff in H3. split; [apply (dest_in P maps Hok) in H1; tauto|]. split; [exact H3|].
    intros q Hq Hgq. apply H2. apply filter_In. split; [eapply RX_dest; eauto|now apply mem_iff].
Qed.

Lemma poss_in r g o : r < P -> In (g, o) (poss r) <-> exists q, q < P /\ In g (RX q r) /\ o = if keeps r g then r else q.
Proof. clear Hallow.
  intro Hr. unfold poss. rewrite isort_in, in_map_iff. split.
  - intros ([[q x] b] & E & He). apply (ents_in r q x b Hr) in He as (Hq & Hg & ->). exists q.
    destruct (keeps r x) eqn:K; injection E as -> ->; rewrite K; auto.
  - intros (q & Hq & Hg & ->). exists (q, g, keeps r g). split; [destruct (keeps r g); reflexivity|]. apply ents_in; auto.
Qed.
Lemma poss_sorted r : StronglySorted (fun x y => pair_leb x y = true) (poss r).
Proof. clear Hallow. apply psort_sorted. Qed.

Lemma sub_owner_ok r d g : r < P -> d < P -> In g (RX d r) ->
  sub_owner (poss r) g = Some (own r g) /\ exists tl, skipn (lower_bound_by fst (poss r) g) (poss r) = (g, own r g) :: tl.
Proof. clear Hallow.
  intros Hr Hd Hg. destruct (own_spec r d g Hr Hd Hg) as [(K & E)|(K & HP & Hi & Hmin)]; apply first_pair; try apply poss_sorted.
  - apply poss_in; [exact Hr|]. exists d. rewrite K. auto.
  - intros o' Ho. apply poss_in in Ho as (q & _ & _ & ->); [|exact Hr]. rewrite K. lia.
  - apply poss_in; [exact Hr|]. exists (own r g). rewrite K. auto.
  - intros o' Ho. apply poss_in in Ho as (q & Hq & Hgq & ->); [|exact Hr]. rewrite K. now apply Hmin.
Qed.

Lemma sub_owners_ok r : r < P -> sub_owners P maps indices allow r
  = Some (concat (map (fun q => map (own r) (RX q r)) (dest r)), map (fun q => length (RX q r)) (dest r)).
Proof.
  intro Hr. unfold sub_owners. rewrite (sub_possible_ok r Hr), (sub_recv_ok r Hr). cbn [obind].
  rewrite (omap_concat _ (own r)).
  - cbn [obind]. now rewrite map_map.
  - intros l g Hl Hg. apply in_map_iff in Hl as (q & <- & Hq). apply (dest_in P maps Hok) in Hq as (Hq & _); [|exact Hr].
    apply (sub_owner_ok r q g); auto.
Qed.

Lemma recv_owners_ok q : q < P ->
  reply P (fun q => src q) (fun q => dest q) (sub_owners P maps indices allow) (sub_send maps indices) q
  = Some (concat (map (fun s => map (own s) (RX q s)) (src q))).
Proof.
  intro Hq. apply (reply_ok P (fun q => src q) (fun q => dest q) (sub_send maps indices) SB (src_dest_graph P maps Hok) sub_send_ok
    (sub_owners P maps indices allow) own q Hq).
  intros s Hs. apply sub_owners_ok. apply (src_in P maps Hok) in Hs; [|exact Hq]. now apply (owner_lt P maps Hok) in Hs.
Qed.

(** Ranks sent to a new owner. *)
Definition ND r d := sort_uniq (concat (map (fun g => if own r g =? d then tl (vals g (poss r)) else []) (RX d r))).

Lemma tl_map {A B} (f : A -> B) l : tl (map f l) = map f (tl l).
Proof. destruct l; reflexivity. Qed.

Lemma sub_new_dest_ok r : r < P -> sub_new_dest P maps indices allow r
  = Some (concat (map (ND r) (dest r)), (map (fun d => length (ND r d)) (dest r), psums (map (fun d => length (ND r d)) (dest r)))).
Proof.
  intro Hr. unfold sub_new_dest. rewrite (sub_possible_ok r Hr), (sub_blocks_ok r Hr). cbn [obind].
  rewrite omap_map with (g := fun db : nat * list nat => ND r (fst db)).
  - cbn [obind]. rewrite !map_map. cbn [fst]. reflexivity.
  - intros [d l] Hd. apply in_map_iff in Hd as (d' & E & Hd). injection E as -> <-. cbn [fst snd].
    apply (dest_in P maps Hok) in Hd as (HdP & _); [|exact Hr].
    rewrite omap_map with (g := fun g => if own r g =? d then tl (vals g (poss r)) else []); [reflexivity|].
    intros g Hg. destruct (sub_owner_ok r d g Hr HdP Hg) as (-> & _). cbn [obind]. 
    pose proof (equal_range (poss r) g 0 (poss_sorted r)) as E. cbv zeta in E. rewrite <- tl_map, E. reflexivity.
Qed.

Lemma vals_NoDup_poss r g : r < P -> keeps r g = false -> NoDup (vals g (poss r)).
Proof. clear Hallow.
  intros Hr K. 
  assert (Hp : Permutation (vals g (poss r)) (vals g (map (fun '(d, idx, b) => if b : bool then (idx, r) else (idx, d)) (ents r)))).
  { unfold vals. apply Permutation_map. clear. unfold poss. induction (isort_perm _ pair_leb (map (fun '(d, idx, b) => if b : bool then (idx, r) else (idx, d)) (ents r))).
    - constructor.
    - cbn [filter]. destruct (fst x =? g); auto.
    - cbn [filter]. destruct (fst x =? g), (fst y =? g); auto. constructor.
    - eapply perm_trans; eauto. }
  eapply Permutation_NoDup; [apply Permutation_sym; exact Hp|]. unfold ents. rewrite concat_map, map_map, vals_concat, map_map.
  apply NoDup_concat; [apply SS_lt_NoDup, (mo_dest _ _ Hok r Hr)| |].
  - intros d Hd. apply (dest_in P maps Hok) in Hd as (Hd & _); [|exact Hr]. rewrite map_map. cbn [fst snd].
    assert (G : forall l, NoDup l -> vals g (map (fun x => if keeps r x then (x, r) else (x, d)) l) = if mem g l then [d] else []).
    { induction 1 as [|x t Hx Ht IH]; [reflexivity|]. cbn [map]. unfold vals in *. cbn [filter]. unfold mem. cbn [existsb]. fold (mem g t).
      destruct (Nat.eqb_spec g x) as [<-|N].
      - rewrite K. cbn [fst]. rewrite Nat.eqb_refl. cbn [map snd orb]. rewrite IH.
        destruct (mem g t) eqn:M; [apply mem_iff in M; contradiction|reflexivity].
      - cbn [orb]. destruct (keeps r x); cbn [fst]; (destruct (Nat.eqb_spec x g); [congruence|exact IH]). }
    rewrite G by now apply RX_NoDup. destruct (mem g (RX d r)); repeat constructor. intros [].
  - intros d d' z Hd Hd' H H'. rewrite map_map in H, H'. cbn [fst snd] in H, H'.
    assert (G : forall e, In z (vals g (map (fun x => if keeps r x then (x, r) else (x, e)) (RX e r))) -> z = e).
    { intros e He. apply vals_in, in_map_iff in He as (x & E & Hx). destruct (keeps r x) eqn:Kx; injection E as -> ->; congruence. }
    rewrite <- (G d H). apply (G d' H').
Qed.

Lemma ND_in r d x : r < P -> d < P -> In x (ND r d) <->
  exists g, In g (RX d r) /\ own r g = d /\ x < P /\ x <> d /\ In g (RX x r).
Proof. clear Hallow.
  intros Hr Hd. unfold ND. rewrite sort_uniq_in, in_concat. 
  assert (G : forall g, In g (RX d r) -> own r g = d -> In x (tl (vals g (poss r))) <-> x < P /\ x <> d /\ In g (RX x r)).
  { intros g Hg E.
    assert (K : keeps r g = false).
    { destruct (own_spec r d g Hr Hd Hg) as [(K & E')|(K & _)]; [|exact K]. exfalso. rewrite E in E'. subst d. now apply RX_in in Hg as (? & _). }
    pose proof (vals_NoDup_poss r g Hr K) as HN.
    destruct (sub_owner_ok r d g Hr Hd Hg) as (_ & t & Et).
    pose proof (equal_range (poss r) g 0 (poss_sorted r)) as Er. cbv zeta in Er. rewrite Et in Er. cbn [prefix_len fst firstn map snd] in Er.
    rewrite Nat.leb_refl in Er. cbn [firstn map snd] in Er. rewrite E in Er.
    assert (Hv : In x (vals g (poss r)) <-> x < P /\ In g (RX x r)).
    { rewrite vals_in, poss_in by exact Hr. rewrite K. split; [intros (q & ? & ? & ->); auto|intros (? & ?); eauto]. }
    rewrite <- Er in *. cbn [tl]. inversion_clear HN as [|? ? Hnd _]. cbn [In] in Hv. split.
    - intro Hx. assert (x <> d) by (intros ->; contradiction). tauto.
    - intros (H1 & H2 & H3). destruct (proj2 Hv (conj H1 H3)) as [<-|H4]; [contradiction|exact H4]. }
  split.
  - intros (l & Hl & H). apply in_map_iff in Hl as (g & <- & Hg). destruct (Nat.eqb_spec (own r g) d) as [E|]; [|destruct H].
    apply (G g Hg E) in H. exists g. tauto.
  - intros (g & Hg & E & H). exists (tl (vals g (poss r))). split; [|apply (G g Hg E); exact H].
    apply in_map_iff. exists g. rewrite E, Nat.eqb_refl. auto.
Qed.

(** Local index and new owner of the marked ghosts of [q]. *)
Definition LO q := concat (map (fun s => map (fun p => (sl q + snd p, own s (fst p))) (SB q s)) (src q)).

Definition ghosts_of q := let l := filter (fun p => negb (snd p =? q)) (LO q) in if preserve then isort pair_leb l else l.
Definition sub_of q := mkSub
  (isort Nat.leb (filter (fun i => i <? sl q) (indices q) ++ map fst (filter (fun p => snd p =? q) (LO q))))
  (map fst (ghosts_of q)) (map snd (ghosts_of q)) (sort_uniq (map snd (ghosts_of q)))
  (sort_uniq (dest0 q ++ concat (map (fun s => ND s q) (src q)))).

Lemma g2l_ghost q i g : q < P -> nth_error (im_ghosts (maps q)) i = Some g -> global_to_local (maps q) g = Z.of_nat (sl q + i).
Proof. clear Hallow.
  intros Hq Hg. apply g2l_l2g.
  - apply (mo_range _ _ Hok q Hq).
  - apply (mo_once _ _ Hok q Hq).
  - intros x Hx. apply (ghost_not_owned P maps Hok q x Hq Hx).
  - unfold local_to_global. destruct (Nat.ltb_spec (sl q + i) (sl q)); [lia|]. rewrite <- Hg. f_equal. lia.
Qed.

Lemma compute_submap_indices_ok q : q < P -> compute_submap_indices P maps indices preserve allow q = Some (sub_of q).
Proof.
  intro Hq. unfold compute_submap_indices. rewrite (sub_send_ok q Hq). unfold sendval. cbn [obind].
  rewrite (sub_possible_ok q Hq). cbn [obind]. rewrite (recv_owners_ok q Hq). cbn [obind].
  rewrite (exchange_spec P (fun q => src q) (fun q => dest q) (sub_new_dest P maps indices allow) ND q (graph_ok_sym _ _ _ (src_dest_graph P maps Hok)) Hq).
  2:{ intros s Hs. apply sub_new_dest_ok. apply (src_in P maps Hok) in Hs; [|exact Hq]. now apply (owner_lt P maps Hok) in Hs. }
  cbn [obind].
  assert (E : omap (fun g => if (0 <=? global_to_local (maps q) g)%Z then Some (Z.to_nat (global_to_local (maps q) g)) else None)
     (concat (map (fun s => map fst (SB q s)) (src q))) = Some (concat (map (fun s => map (fun p => sl q + snd p) (SB q s)) (src q)))).
  { assert (G : forall L, (forall p, In p L -> nth_error (im_ghosts (maps q)) (snd p) = Some (fst p)) ->
      omap (fun g => if (0 <=? global_to_local (maps q) g)%Z then Some (Z.to_nat (global_to_local (maps q) g)) else None) (map fst L) = Some (map (fun p => sl q + snd p) L)).
    { induction L as [|p t IH]; intro H; [reflexivity|]. cbn [map omap]. rewrite (g2l_ghost q (snd p) (fst p) Hq) by (apply H; now left).
      cbv zeta in IH |- *. destruct (Z.leb_spec 0 (Z.of_nat (sl q + snd p))); [|lia]. rewrite Nat2Z.id. cbn [obind].
      rewrite IH by (intros; apply H; now right). reflexivity. }
    pose proof (G (concat (map (SB q) (src q)))) as G'. rewrite !concat_map, !map_map in G'. apply G'.
    intros [g i] Hp. apply in_concat in Hp as (l & Hl & Hp). apply in_map_iff in Hl as (s & <- & Hs). now apply SB_in in Hp as (H & _). }
  rewrite E. cbn [obind].
  assert (Hl : forall s, length (map (fun p => sl q + snd p) (SB q s)) = length (map (own s) (RX q s))) by (intro; unfold RX; now rewrite !map_length).
  replace (length (concat (map (fun s => map (fun p => sl q + snd p) (SB q s)) (src q))) =? length (concat (map (fun s => map (own s) (RX q s)) (src q)))) with true.
  - rewrite (combine_concat (fun s => map (fun p => sl q + snd p) (SB q s)) (fun s => map (own s) (RX q s))) by (intros; apply Hl).
    replace (concat (map (fun s => combine (map (fun p => sl q + snd p) (SB q s)) (map (own s) (RX q s))) (src q))) with (LO q); [reflexivity|].
    unfold LO. f_equal. apply map_ext. intro s. unfold RX. rewrite map_map. symmetry. apply combine_map.
  - clear E. symmetry. apply Nat.eqb_eq. induction (src q) as [|s t IH]; [reflexivity|]. cbn [map concat]. rewrite !app_length, IH, Hl. reflexivity.
Qed.
End Sub.
