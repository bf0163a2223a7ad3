(** Proofs about sparsity patterns. *)
From Verif Require Import Base BaseProofs BucketProofs Algo AlgoProofs World WorldProofs IndexMap IndexMapSpec IndexMapProofs ImSharedProofs RoundTrip ScattererProofs Sparsity SparsitySpec.

(** * Buckets *)
Lemma bucket_spec (es : list (nat * nat)) n : (forall e, In e es -> fst e < n) ->
  bucket_by_row es n = Some (psums (map (fun k => length (vals k es)) (seq 0 n)), concat (map (fun k => vals k es) (seq 0 n))).
Proof.
  intro H. unfold bucket_by_row.
  assert (HF : Forall (fun kv => fst kv < n) es) by (now apply Forall_forall).
  rewrite count_keys_spec by (rewrite Forall_forall; intros k Hk; apply in_map_iff in Hk as (e & <- & He); auto).
  cbn [obind]. rewrite map_vals_counts.
  destruct (place_all n es (removelast (psums (map (fun k => length (vals k es)) (seq 0 n)))) (repeat 0 (length es)) HF) as (pos & E & _).
  - intros k Hk. rewrite removelast_nth by (rewrite psums_length, map_length, seq_length; lia).
    apply psums_offk. lia.
  - apply repeat_length.
  - rewrite E. reflexivity.
Qed.

Lemma slice_groups {V} (f : nat -> list V) n i : i < n ->
  slice_at (concat (map f (seq 0 n))) (psums (map (fun k => length (f k)) (seq 0 n))) i = Some (f i).
Proof.
  intro H. rewrite <- (map_map f (@length V)). apply slice_at_concat.
  rewrite nth_error_map_some, nth_error_seq by exact H. reflexivity.
Qed.

(** * Stamps *)
Lemma stamp_row i l : forall seen row, (forall c, In c l -> c < length seen) ->
  NoDup row -> (forall c, c < length seen -> (nth_error seen c = Some (Some i) <-> In c row)) ->
  exists seen' row', ofold (stamp_col i) l (seen, row) = Some (seen', row') /\
    length seen' = length seen /\ NoDup row' /\
    (forall c, In c row' <-> In c row \/ In c l) /\
    (forall c, c < length seen -> (nth_error seen' c = Some (Some i) <-> In c row')) /\
    (forall c j, nth_error seen' c = Some (Some j) -> j = i \/ nth_error seen c = Some (Some j)).
Proof.
  induction l as [|c l IH]; intros seen row Hb Hn Hs.
  - exists seen, row. cbn. repeat split; auto; try tauto; try (intros; now apply Hs).
  - cbn [ofold]. assert (Hc : c < length seen) by (apply Hb; now left).
    destruct (nth_error_lt seen c Hc) as (s & Es).
    assert (K : (s = Some i /\ stamp_col i (seen, row) c = Some (seen, row)) \/
                (s <> Some i /\ exists seen1, upd seen c (Some i) = Some seen1 /\ stamp_col i (seen, row) c = Some (seen1, row ++ [c]))).
    { unfold stamp_col. rewrite Es. cbn [obind]. destruct s as [j|].
      - destruct (Nat.eqb_spec j i) as [E|N]; [left; split; [congruence|reflexivity]|].
        right. split; [congruence|]. destruct (upd_some seen c (Some i) Hc) as (s1 & E1). exists s1. rewrite E1. auto.
      - right. split; [congruence|]. destruct (upd_some seen c (Some i) Hc) as (s1 & E1). exists s1. rewrite E1. auto. }
    destruct K as [(-> & ->)|(Hne & seen1 & Eu & ->)]; cbn [obind].
    + destruct (IH seen row) as (s' & r' & E & L & N & I & S1 & S2); auto.
      { intros; apply Hb; now right. }
      exists s', r'. split; [exact E|]. split; [exact L|]. split; [exact N|]. split; [|split; auto].
      intro d. rewrite I. cbn. split; [tauto|]. intros [H|[<-|H]]; auto. left. now apply Hs.
    + pose proof (upd_length _ _ _ _ Eu) as L1.
      assert (Hnr : ~ In c row) by (intro H; apply (Hs c Hc) in H; rewrite Es in H; congruence).
      destruct (IH seen1 (row ++ [c])) as (s' & r' & E & L & N & I & S1 & S2).
      { intros d Hd. rewrite L1. apply Hb. now right. }
      { apply NoDup_app_intro; auto; [repeat constructor; auto|]. intros d Hd [<-|[]]. contradiction. }
      { intros d Hd. rewrite (upd_nth _ _ _ d _ Eu), in_app_iff. cbn.
        destruct (Nat.eqb_spec c d) as [<-|Nd]; [tauto|]. rewrite Hs by lia. intuition. }
      exists s', r'. split; [exact E|]. split; [lia|]. split; [exact N|]. split; [|split].
      * intro d. rewrite I, in_app_iff. cbn. tauto.
      * intros d Hd. apply S1. lia.
      * intros d j Hd. destruct (S2 d j Hd) as [->|H]; [now left|].
        rewrite (upd_nth _ _ _ d _ Eu) in H. destruct (Nat.eqb_spec c d) as [<-|Nd]; [left; congruence|now right].
Qed.

Section Rows.
Variables (ls0 ls1 n nc : nat) (F G : nat -> list nat).
Hypothesis Hls : ls0 <= n.
Hypothesis HF : forall i c, i < n -> In c (F i) -> c < nc.
Hypothesis HG : forall i c, i < ls0 -> In c (G i) -> c < nc.
Definition raw i := F i ++ (if i <? ls0 then G i else []).
Definition Rw i := sort_uniq (raw i).

Lemma rows_fold :
  exists seen, ofold (row_step ls0 ls1 (psums (map (fun k => length (F k)) (seq 0 n)), concat (map F (seq 0 n)))
                                (psums (map (fun k => length (G k)) (seq 0 ls0)), concat (map G (seq 0 ls0))))
    (seq 0 n) (mkRows (repeat None nc) [] [0] [])
  = Some (mkRows seen (concat (map Rw (seq 0 n))) (psums (map (fun k => length (Rw k)) (seq 0 n)))
                 (map (fun k => lower_bound (Rw k) ls1) (seq 0 n))).
Proof.
  pose (Inv := fun (p : list nat) (st : row_state) =>
    length (rw_seen st) = nc /\ (forall c j, nth_error (rw_seen st) c = Some (Some j) -> In j p) /\
    rw_edges st = concat (map Rw p) /\ rw_offsets st = psums (map (fun k => length (Rw k)) p) /\
    rw_offdiag st = map (fun k => lower_bound (Rw k) ls1) p).
  match goal with |- exists seen, ofold ?f _ ?s = _ => destruct (ofold_prefix_ind f Inv (seq 0 n) s) as (st & E & I) end.
  - unfold Inv. cbn [rw_seen rw_edges rw_offsets rw_offdiag map concat]. split; [apply repeat_length|].
    split; [|repeat split]. intros c j H. apply nth_error_In, repeat_spec in H. discriminate.
  - intros p i q st Hp (I1 & I2 & I3 & I4 & I5).
    assert (Hi : i = length p /\ i < n /\ p = seq 0 i).
    { assert (L : length (seq 0 n) = length (p ++ i :: q)) by (now rewrite Hp).
      rewrite seq_length, app_length in L. cbn in L.
      assert (A : nth_error (seq 0 n) (length p) = Some i) by (rewrite Hp, nth_error_app2, Nat.sub_diag by lia; reflexivity).
      rewrite nth_error_seq in A by lia. injection A as A. split; [lia|]. split; [lia|].
      apply nth_error_ext. intro k. destruct (lt_dec k (length p)) as [Hk|Hk].
      - rewrite nth_error_seq by lia. rewrite <- (nth_error_app1 p (i :: q)), <- Hp, nth_error_seq by lia. reflexivity.
      - rewrite !(proj2 (nth_error_None _ _)); auto; [rewrite seq_length; lia|lia]. }
    destruct Hi as (Hip & Hi & Hpe).
    assert (Hni : ~ In i p) by (rewrite Hpe, in_seq; lia).
    unfold row_step. cbn [fst snd]. rewrite slice_groups by exact Hi. cbn [obind].
    destruct (stamp_row i (F i) (rw_seen st) []) as (s1 & r1 & E1 & L1 & N1 & J1 & K1 & M1).
    { intros c Hc. rewrite I1. eapply HF; eauto. }
    { constructor. }
    { intros c Hc. split; [|intros []]. intro H. apply I2 in H. contradiction. }
    rewrite E1. cbn [obind].
    assert (X : exists s2 r2, (if i <? ls0 then
        d <- slice_at (concat (map G (seq 0 ls0))) (psums (map (fun k => length (G k)) (seq 0 ls0))) i;;
        ofold (stamp_col i) d (s1, r1) else Some (s1, r1)) = Some (s2, r2) /\ length s2 = nc /\ NoDup r2 /\
      (forall c, In c r2 <-> In c (raw i)) /\
      (forall c j, nth_error s2 c = Some (Some j) -> j = i \/ In j p)).
    { unfold raw. destruct (Nat.ltb_spec i ls0) as [Hl|Hl].
      - rewrite slice_groups by exact Hl. cbn [obind].
        destruct (stamp_row i (G i) s1 r1) as (s2 & r2 & E2 & L2 & N2 & J2 & K2 & M2).
        { intros c Hc. rewrite L1, I1. eapply HG; eauto. }
        { exact N1. }
        { intros c Hc. apply K1. lia. }
        exists s2, r2. split; [exact E2|]. split; [lia|]. split; [exact N2|]. split.
        + intro c. rewrite J2, J1, in_app_iff. cbn. tauto.
        + intros c j H. destruct (M2 c j H) as [->|H']; [now left|]. destruct (M1 c j H') as [->|H'']; [now left|].
          right. eauto.
      - exists s1, r1. split; [reflexivity|]. split; [lia|]. split; [exact N1|]. split.
        + intro c. rewrite J1, app_nil_r. cbn. tauto.
        + intros c j H. destruct (M1 c j H) as [->|H']; [now left|]. right. eauto. }
    destruct X as (s2 & r2 & E2 & L2 & N2 & J2 & M2). rewrite E2. cbn [obind snd fst].
    assert (ER : isort Nat.leb r2 = Rw i).
    { apply SS_lt_eq; [|apply sort_uniq_sorted|].
      - apply SS_lt_of. pose proof (nsort_sorted r2) as Hs. pose proof (NoDup_isort r2 N2) as Hn.
        clear - Hs Hn. induction Hs as [|x t Ht IH Hx]; [constructor|]. inversion Hn; subst. constructor; auto.
        rewrite Forall_forall in *. intros y Hy. split; [auto|]. intros ->. contradiction.
      - intro c. unfold Rw. rewrite isort_in, sort_uniq_in. apply J2. }
    rewrite ER. eexists. split; [reflexivity|]. unfold Inv. cbn [rw_seen rw_edges rw_offsets rw_offdiag].
    split; [exact L2|]. split.
    { intros c j H. rewrite in_app_iff. cbn. destruct (M2 c j H); auto. }
    rewrite I3, I4, I5, !map_app, concat_app. cbn [map concat]. rewrite app_nil_r, psums_snoc, last_psums. auto.
  - destruct st as [seen ed of od]. destruct I as (_ & _ & H1 & H2 & H3). cbn in *. subst. exists seen. exact E.
Qed.
End Rows.

(** * Sending ghost rows *)
Definition flat_items {V} (items : list (nat * list V)) : list (nat * V) :=
  concat (map (fun nt => map (pair (fst nt)) (snd nt)) items).

Lemma vals_pairs {V} k k' (l : list V) : vals k (map (pair k') l) = if k' =? k then l else [].
Proof.
  unfold vals. induction l as [|x t IH]; cbn; [now destruct (k' =? k)|].
  destruct (k' =? k); cbn; [now rewrite IH|exact IH].
Qed.

Lemma vals_flat {V} k (items : list (nat * list V)) :
  vals k (flat_items items) = concat (map (fun nt => if fst nt =? k then snd nt else []) items).
Proof.
  unfold flat_items. rewrite vals_concat. f_equal. rewrite map_map. apply map_ext. intros [n l]. apply vals_pairs.
Qed.

Lemma sizes_fold {V} n (items : list (nat * list V)) : (forall it, In it items -> fst it < n) ->
  ofold (fun w nt => modify w (fst nt) (fun x => x + length (snd nt))) items (repeat 0 n)
  = Some (map (fun k => length (vals k (flat_items items))) (seq 0 n)).
Proof.
  intro H.
  destruct (ofold_prefix_ind (fun w (nt : nat * list V) => modify w (fst nt) (fun x => x + length (snd nt)))
    (fun p w => w = map (fun k => length (vals k (flat_items p))) (seq 0 n)) items (repeat 0 n)) as (w & E & I).
  - apply nth_error_ext. intro i. rewrite nth_error_map_some. destruct (lt_dec i n) as [L|L].
    + rewrite nth_error_repeat, nth_error_seq by exact L. reflexivity.
    + rewrite !(proj2 (nth_error_None _ _)); [reflexivity|rewrite seq_length; lia|rewrite repeat_length; lia].
  - intros p a q s Hp ->. destruct (modify_some (map (fun k => length (vals k (flat_items p))) (seq 0 n)) (fst a) (fun x => x + length (snd a))) as (w & Ew).
    { rewrite map_length, seq_length. apply H. rewrite Hp. apply in_app_iff. right. now left. }
    exists w. split; [exact Ew|]. apply nth_error_ext. intro i. rewrite (modify_nth _ _ _ i _ Ew), !nth_error_map_some.
    destruct (lt_dec i n) as [L|L].
    + rewrite nth_error_seq by exact L. cbn. unfold flat_items. rewrite map_app, concat_app, vals_app, app_length.
      cbn [map concat]. rewrite app_nil_r, vals_pairs. destruct (fst a =? i); cbn; [reflexivity|f_equal; lia].
    + rewrite (proj2 (nth_error_None (seq 0 n) i)) by (rewrite seq_length; lia). cbn. now destruct (fst a =? i).
  - now rewrite E, I.
Qed.

Lemma send_buffer {V} (d : V) n (items : list (nat * list V)) : (forall it, In it items -> fst it < n) ->
  let sizes := map (fun k => length (vals k (flat_items items))) (seq 0 n) in
  exists pos, ofold place (flat_items items) (psums sizes, repeat d (last (psums sizes) 0))
    = Some (pos, concat (map (fun k => vals k (flat_items items)) (seq 0 n))).
Proof.
  intros H sizes.
  assert (HF : Forall (fun kv => fst kv < n) (flat_items items)).
  { apply Forall_forall. intros kv Hk. apply in_concat in Hk as (l & Hl & Hk).
    apply in_map_iff in Hl as (it & <- & Hit). apply in_map_iff in Hk as (v & <- & _). cbn. auto. }
  destruct (place_all n (flat_items items) (psums sizes) (repeat d (last (psums sizes) 0)) HF) as (pos & E & _).
  - intros k Hk. apply psums_offk. lia.
  - rewrite repeat_length, last_psums. unfold sizes.
    rewrite <- (vals_map_seq_total n (flat_items items) HF), <- lsum_concat_length, map_map. reflexivity.
  - exists pos. exact E.
Qed.

Section World.
Variables (P : nat) (maps0 maps1 : nat -> imap) (patterns : nat -> pattern).
Hypothesis Hok0 : maps_ok P maps0.
Hypothesis Hok1 : maps_ok P maps1.
Hypothesis Hp : patterns_ok P maps0 maps1 patterns.

Notation cache q := (pt_cache (patterns q)).
Notation ls0 q := (size_local (maps0 q)).
Notation ls1 q := (size_local (maps1 q)).

Definition tt (q g c : nat) : nat * (nat * nat) :=
  match triplet maps1 q g c with Some t => t | None => (0, (0, 0)) end.

Lemma triplet_ok q g c : q < P -> c < ls1 q + num_ghosts (maps1 q) ->
  exists col o, triplet maps1 q g c = Some (g, (col, o)) /\ local_to_global (maps1 q) c = Some col /\
    o < P /\ owns (maps1 o) col.
Proof.
  intros Hq Hc. unfold triplet, local_to_global. destruct (Nat.ltb_spec c (ls1 q)) as [L|L].
  - exists (c + im_lo (maps1 q)), q. split; [reflexivity|]. split; [f_equal; lia|]. split; [exact Hq|].
    unfold owns. unfold size_local in L. lia.
  - destruct (nth_error_lt (im_ghosts (maps1 q)) (c - ls1 q)) as (col & Eg); [unfold num_ghosts in Hc; lia|].
    destruct (nth_error_lt (im_owners (maps1 q)) (c - ls1 q)) as (o & Eo).
    { rewrite (mo_len _ _ Hok1) by exact Hq. eapply nth_error_bound; eauto. }
    exists col, o. rewrite Eg, Eo. cbn [obind]. split; [reflexivity|]. split; [reflexivity|].
    destruct (mo_owner _ _ Hok1 q _ _ _ Hq Eg Eo) as (A & _ & B). auto.
Qed.

(** The triplets of ghost row [k] of rank [q]. *)
Definition trips q k := map (tt q (nth k (im_ghosts (maps0 q)) 0)) (vals (ls0 q + k) (cache q)).
Definition B q d := concat (map (fun k => if nth k (im_owners (maps0 q)) 0 =? d then trips q k else [])
                                (seq 0 (num_ghosts (maps0 q)))).

Lemma cache_rows q e : q < P -> In e (cache q) -> fst e < ls0 q + num_ghosts (maps0 q).
Proof. intros Hq He. destruct e as [i c]. destruct (Hp q Hq) as (_ & H). now apply H in He. Qed.
Lemma cache_cols q i c : q < P -> In c (vals i (cache q)) -> c < ls1 q + num_ghosts (maps1 q).
Proof. intros Hq He. apply vals_in in He. destruct (Hp q Hq) as (_ & H). now apply H in He. Qed.

Lemma send_ok q : q < P -> ghost_rows_send maps0 maps1 patterns q =
  Some (concat (map (B q) (im_src (maps0 q))),
        (map (fun d => length (B q d)) (im_src (maps0 q)), psums (map (fun d => length (B q d)) (im_src (maps0 q))))).
Proof.
  intro Hq. unfold ghost_rows_send. destruct (Hp q Hq) as (-> & _).
  rewrite bucket_spec by (intros e He; now apply cache_rows). cbn [obind].
  destruct (mo_src _ _ Hok0 q Hq) as (Hss & Hsin).
  set (src := im_src (maps0 q)) in *. set (ow := im_owners (maps0 q)) in *.
  assert (HN : length ow = num_ghosts (maps0 q)) by (apply (mo_len _ _ Hok0 q Hq)).
  pose (nr := fun o => match index_in o src with Some k => k | None => 0 end).
  assert (Hnr : forall o, In o ow -> index_in o src = Some (nr o)).
  { intros o Ho. apply Hsin in Ho. destruct (index_in_in o src Ho) as (k & E). unfold nr. now rewrite E. }
  rewrite omap_map with (g := nr).
  2:{ intros o Ho. rewrite find_sorted_spec by exact Hss. now apply Hnr. }
  cbn [obind].
  pose (items := map (fun k => (nr (nth k ow 0), trips q k)) (seq 0 (length ow))).
  rewrite omap_map with (g := fun k => (nr (nth k ow 0), trips q k)).
  2:{ intros k Hk. apply in_seq in Hk. cbn in Hk. rewrite nth_error_map_some.
      rewrite (nth_error_nth_some ow k 0) by lia. cbn [option_map obind].
      rewrite (nth_error_nth_some (im_ghosts (maps0 q)) k 0) by (unfold num_ghosts in HN; lia). cbn [obind].
      rewrite slice_groups by lia. cbn [obind].
      rewrite omap_map with (g := tt q (nth k (im_ghosts (maps0 q)) 0)); [reflexivity|].
      intros c Hc. apply cache_cols in Hc; [|exact Hq]. unfold tt.
      destruct (triplet_ok q (nth k (im_ghosts (maps0 q)) 0) c Hq Hc) as (col & o & -> & _). reflexivity. }
  cbn [obind]. fold items.
  assert (Hit : forall it, In it items -> fst it < length src).
  { intros it H. apply in_map_iff in H as (k & <- & Hk). apply in_seq in Hk. cbn. cbn in Hk.
    assert (Ho : In (nth k ow 0) ow) by (apply nth_In; lia). apply Hnr in Ho.
    apply index_in_some, nth_error_bound in Ho. exact Ho. }
  rewrite sizes_fold by exact Hit. cbn [obind].
  change (concat (map (fun nt : nat * list (nat * (nat * nat)) => map (pair (fst nt)) (snd nt)) items)) with (flat_items items).
  destruct (send_buffer (0, (0, 0)) (length src) items Hit) as (pos & Ep). rewrite Ep. cbn [obind].
  assert (E : map (fun k => vals k (flat_items items)) (seq 0 (length src)) = map (B q) src).
  { apply map_seq_nth. intros k d Hd. rewrite vals_flat. unfold items, B. rewrite map_map. cbn [fst snd]. fold ow. rewrite HN.
    f_equal. apply map_ext_in. intros j Hj. apply in_seq in Hj.
    assert (Ho : In (nth j ow 0) ow) by (apply nth_In; lia). apply Hnr, index_in_some in Ho.
    destruct (Nat.eqb_spec (nr (nth j ow 0)) k) as [E|N], (Nat.eqb_spec (nth j ow 0) d) as [E'|N']; try reflexivity.
    - subst k. congruence.
    - exfalso. apply N. apply (NoDup_nth_error_inj src _ _ d); [now apply SS_lt_NoDup|rewrite <- E'; exact Ho|exact Hd]. }
  assert (E2 : map (fun k => length (vals k (flat_items items))) (seq 0 (length src)) = map (fun d => length (B q d)) src).
  { rewrite <- (map_map (fun k => vals k (flat_items items))), E, map_map. reflexivity. }
  rewrite E, E2. reflexivity.
Qed.

Definition inbox r := concat (map (fun s => B s r) (im_dest (maps0 r))).
Lemma inbox_ok r : r < P -> exists sz,
  exchange P (fun q => im_dest (maps0 q)) (fun q => im_src (maps0 q)) (ghost_rows_send maps0 maps1 patterns) r = Some (inbox r, sz).
Proof.
  intro Hr. eexists. apply (exchange_spec P _ _ _ B r (src_dest_graph P maps0 Hok0) Hr).
  intros s Hs. apply send_ok. apply (dest_in P maps0 Hok0) in Hs; [apply Hs|exact Hr].
Qed.

(** What arrives at [r]: the entries that others inserted in rows owned by [r]. *)
Lemma inbox_in r G g o : r < P -> In (G, (g, o)) (inbox r) ->
  owns (maps0 r) G /\ o < P /\ owns (maps1 o) g /\ exists q, q < P /\ q <> r /\ inserted_on maps0 maps1 patterns q G g.
Proof.
  intros Hr H. apply in_concat in H as (l & Hl & H). apply in_map_iff in Hl as (q & <- & Hq).
  apply (dest_in P maps0 Hok0) in Hq as (Hq & _); [|exact Hr].
  apply in_concat in H as (l & Hl & H). apply in_map_iff in Hl as (k & <- & Hk). apply in_seq in Hk. cbn in Hk.
  destruct (Nat.eqb_spec (nth k (im_owners (maps0 q)) 0) r) as [Eo|]; [|destruct H].
  apply in_map_iff in H as (c & Et & Hc). pose proof (cache_cols _ _ _ Hq Hc) as Hc'.
  assert (Hg : nth_error (im_ghosts (maps0 q)) k = Some (nth k (im_ghosts (maps0 q)) 0)) by (apply nth_error_nth_some; apply Hk).
  assert (Ho : nth_error (im_owners (maps0 q)) k = Some r).
  { rewrite <- Eo. apply nth_error_nth_some. rewrite (mo_len _ _ Hok0) by exact Hq. apply Hk. }
  destruct (mo_owner _ _ Hok0 q k _ _ Hq Hg Ho) as (_ & Hne & Hown).
  destruct (triplet_ok q (nth k (im_ghosts (maps0 q)) 0) c Hq Hc') as (col & o' & E & Ecol & Ho' & Hw).
  unfold tt in Et. rewrite E in Et. injection Et as <- <- <-.
  split; [exact Hown|]. split; [exact Ho'|]. split; [exact Hw|]. exists q. split; [exact Hq|]. split; [auto|].
  exists (ls0 q + k), c. split; [now apply vals_in|]. split; [|exact Ecol].
  unfold local_to_global. destruct (Nat.ltb_spec (ls0 q + k) (ls0 q)); [lia|].
  now replace (ls0 q + k - ls0 q) with k by lia.
Qed.

Lemma inbox_has r q G g : r < P -> q < P -> q <> r -> owns (maps0 r) G -> inserted_on maps0 maps1 patterns q G g ->
  exists o, In (G, (g, o)) (inbox r).
Proof.
  intros Hr Hq Hne Hw (i & c & Hin & Hi & Hc).
  assert (Hi' : ls0 q <= i).
  { unfold local_to_global in Hi. destruct (Nat.ltb_spec i (ls0 q)) as [L|L]; [|exact L]. exfalso. apply Hne.
    apply (owner_unique P maps0 Hok0 q r G); auto. injection Hi as <-. unfold owns. unfold size_local in L. lia. }
  unfold local_to_global in Hi. destruct (Nat.ltb_spec i (ls0 q)) as [L|L]; [lia|]. clear L.
  pose proof (nth_error_In _ _ Hi) as HG. pose proof (nth_error_bound _ _ _ Hi) as Hb.
  destruct (nth_error_lt (im_owners (maps0 q)) (i - ls0 q)) as (o & Ho); [rewrite (mo_len _ _ Hok0) by exact Hq; exact Hb|].
  destruct (mo_owner _ _ Hok0 q _ _ _ Hq Hi Ho) as (Ho1 & _ & Ho2).
  assert (o = r) by (apply (owner_unique P maps0 Hok0 o r G); auto). subst o.
  destruct (triplet_ok q G c Hq) as (col & o & E & Ecol & _).
  { destruct (Hp q Hq) as (_ & H). now apply H in Hin. }
  rewrite Hc in Ecol. injection Ecol as <-. exists o. apply in_concat. exists (B q r). split.
  - apply in_map_iff. exists q. split; [reflexivity|]. apply (dest_iff P maps0 Hok0 r q Hr). split; [exact Hq|]. eauto.
  - apply in_concat. exists (trips q (i - ls0 q)). split.
    + apply in_map_iff. exists (i - ls0 q). rewrite (nth_error_nth _ _ _ Ho), Nat.eqb_refl. split; [reflexivity|].
      apply in_seq. unfold num_ghosts. lia.
    + unfold trips. apply in_map_iff. exists c. rewrite (nth_error_nth _ _ _ Hi). unfold tt. rewrite E. split; [reflexivity|].
      apply vals_in. now replace (ls0 q + (i - ls0 q)) with i by lia.
Qed.
End World.

Lemma l2g_inj P maps r i j g : maps_ok P maps -> r < P ->
  local_to_global (maps r) i = Some g -> local_to_global (maps r) j = Some g -> i = j.
Proof.
  intros Hok Hr Hi Hj.
  assert (Hno : forall g, In g (im_ghosts (maps r)) -> ~ owns (maps r) g) by (intros; now apply (ghost_not_owned P maps Hok)).
  pose proof (g2l_l2g (maps r) (mo_range _ _ Hok r Hr) (mo_once _ _ Hok r Hr) Hno _ _ Hi) as A.
  pose proof (g2l_l2g (maps r) (mo_range _ _ Hok r Hr) (mo_once _ _ Hok r Hr) Hno _ _ Hj) as A'. lia.
Qed.

Lemma l2g_own m i : i < size_local m -> local_to_global m i = Some (im_lo m + i).
Proof. intro H. unfold local_to_global. now destruct (Nat.ltb_spec i (size_local m)); [|lia]. Qed.

Lemma prefix_split l x : StronglySorted lt l -> lower_bound l x <= length l /\
  forall k c, nth_error l k = Some c -> (k < lower_bound l x <-> c < x).
Proof.
  intro H. split; [apply prefix_len_le|]. unfold lower_bound, lower_bound_by.
  induction H as [|y t Ht IH Hy]; intros k c Hk; [destruct k; discriminate|].
  cbn [prefix_len]. rewrite Forall_forall in Hy. destruct (Nat.ltb_spec y x) as [L|L].
  - destruct k as [|k]; cbn in Hk; [injection Hk as <-; lia|]. rewrite <- (IH k c Hk). lia.
  - split; [lia|]. intro Hc. destruct k as [|k]; cbn in Hk; [injection Hk as <-; lia|].
    apply nth_error_In, Hy in Hk. lia.
Qed.

Definition lg (m : imap) (gh : list nat) (c : nat) : option nat :=
  if c <? size_local m then Some (im_lo m + c) else nth_error gh (c - size_local m).

Lemma Forall2_impl {A B} (R S : A -> B -> Prop) u v : (forall a b, R a b -> S a b) -> Forall2 R u v -> Forall2 S u v.
Proof. intros H. induction 1; constructor; auto. Qed.

Lemma Forall2_in_l {A B} (R : A -> B -> Prop) u v a : Forall2 R u v -> In a u -> exists b, In b v /\ R a b.
Proof. induction 1; [intros []|]. intros [<-|H1]; [exists y; cbn; auto|]. destruct (IHForall2 H1) as (b & H2 & H3). exists b. cbn. auto. Qed.
Lemma Forall2_in_r {A B} (R : A -> B -> Prop) u v b : Forall2 R u v -> In b v -> exists a, In a u /\ R a b.
Proof. induction 1; [intros []|]. intros [<-|H1]; [exists x; cbn; auto|]. destruct (IHForall2 H1) as (a & H2 & H3). exists a. cbn. auto. Qed.

Section Recv.
Variables (P : nat) (maps0 maps1 : nat -> imap) (patterns : nat -> pattern).
Hypothesis Hok0 : maps_ok P maps0.
Hypothesis Hok1 : maps_ok P maps1.
Hypothesis Hp : patterns_ok P maps0 maps1 patterns.
Notation ls0 q := (size_local (maps0 q)).
Notation ls1 q := (size_local (maps1 q)).
Notation inbox := (inbox maps0 maps1 patterns).

Lemma recv_ok r : r < P -> exists st ext exto,
  ofold (recv_step (maps0 r) (maps1 r)) (inbox r) (mkRecv (im_ghosts (maps1 r)) (im_owners (maps1 r)) []) = Some st /\
  rv_ghosts st = im_ghosts (maps1 r) ++ ext /\ rv_owners st = im_owners (maps1 r) ++ exto /\ length ext = length exto /\
  NoDup (rv_ghosts st) /\
  (forall k g o, nth_error (rv_ghosts st) k = Some g -> nth_error (rv_owners st) k = Some o -> o < P /\ o <> r /\ owns (maps1 o) g) /\
  (forall g, In g ext -> exists G o, In (G, (g, o)) (inbox r)) /\
  Forall2 (fun t e => fst e + im_lo (maps0 r) = fst t /\ lg (maps1 r) (rv_ghosts st) (snd e) = Some (fst (snd t))) (inbox r) (rv_entries st).
Proof.
  intro Hr. set (m0 := maps0 r). set (m1 := maps1 r).
  pose (Inv := fun (p : list (nat * (nat * nat))) (st : recv_state) => exists ext exto,
    rv_ghosts st = im_ghosts m1 ++ ext /\ rv_owners st = im_owners m1 ++ exto /\ length ext = length exto /\
    NoDup (rv_ghosts st) /\
    (forall k g o, nth_error (rv_ghosts st) k = Some g -> nth_error (rv_owners st) k = Some o -> o < P /\ o <> r /\ owns (maps1 o) g) /\
    (forall g, In g ext -> exists G o, In (G, (g, o)) p) /\
    Forall2 (fun t e => fst e + im_lo m0 = fst t /\ lg m1 (rv_ghosts st) (snd e) = Some (fst (snd t))) p (rv_entries st)).
  destruct (ofold_prefix_ind (recv_step m0 m1) Inv (inbox r) (mkRecv (im_ghosts m1) (im_owners m1) [])) as (st & E & I).
  - exists [], []. cbn [rv_ghosts rv_owners rv_entries]. rewrite !app_nil_r. repeat split; auto.
    + apply (mo_once _ _ Hok1 r Hr).
    + apply (mo_owner _ _ Hok1 r k g o Hr H H0).
    + apply (mo_owner _ _ Hok1 r k g o Hr H H0).
    + apply (mo_owner _ _ Hok1 r k g o Hr H H0).
    + apply (mo_owner _ _ Hok1 r k g o Hr H H0).
    + intros g [].
  - intros p [G [g o]] q st Hsplit (ext & exto & I1 & I2 & I3 & I4 & I5 & I6 & I7).
    assert (Hin : In (G, (g, o)) (inbox r)) by (rewrite Hsplit, in_app_iff; right; now left).
    destruct (inbox_in P maps0 maps1 patterns Hok0 Hok1 Hp r G g o Hr Hin) as (HG & Ho & Hw & _).
    assert (Hlen : length (rv_owners st) = length (rv_ghosts st)).
    { rewrite I1, I2, !app_length. pose proof (mo_len _ _ Hok1 r Hr). fold m1 in H. lia. }
    unfold recv_step. unfold owns in HG. fold m0 in HG. destruct (Nat.ltb_spec G (im_lo m0)) as [L|_]; [lia|].
    destruct (Nat.leb_spec (im_lo m1) g) as [La|La], (Nat.ltb_spec g (im_hi m1)) as [Lb|Lb]; cbn [andb].
    1:{ eexists. split; [reflexivity|]. exists ext, exto. cbn [rv_ghosts rv_owners rv_entries].
        split; [exact I1|]. split; [exact I2|]. split; [exact I3|]. split; [exact I4|]. split; [exact I5|]. split.
        - intros x Hx. destruct (I6 x Hx) as (G' & o' & H). exists G', o'. apply in_app_iff. now left.
        - apply Forall2_app; [exact I7|]. constructor; [|constructor]. cbn. split; [lia|].
          unfold lg, size_local. destruct (Nat.ltb_spec (g - im_lo m1) (im_hi m1 - im_lo m1)); [f_equal; lia|lia]. }
    all: assert (Hor : o <> r) by (intros ->; unfold owns in Hw; fold m1 in Hw; lia).
    all: destruct (index_in g (rv_ghosts st)) as [k|] eqn:Ek.
    all: eexists; (split; [reflexivity|]).
    1,3,5: exists ext, exto; cbn [rv_ghosts rv_owners rv_entries];
        (split; [exact I1|]); (split; [exact I2|]); (split; [exact I3|]); (split; [exact I4|]); (split; [exact I5|]); split;
        [intros x Hx; destruct (I6 x Hx) as (G' & o' & H); exists G', o'; apply in_app_iff; now left|
         apply Forall2_app; [exact I7|]; constructor; [|constructor]; cbn; split; [lia|];
         unfold lg; destruct (Nat.ltb_spec (size_local m1 + k) (size_local m1)); [lia|];
         replace (size_local m1 + k - size_local m1) with k by lia; now apply index_in_some].
    all: exists (ext ++ [g]), (exto ++ [o]); cbn [rv_ghosts rv_owners rv_entries];
        (split; [rewrite I1, app_assoc; reflexivity|]); (split; [rewrite I2, app_assoc; reflexivity|]);
        (split; [rewrite !app_length; cbn; lia|]); (split; [|split; [|split]]).
    all: try (apply NoDup_app_intro; [exact I4|repeat constructor; auto|]; intros x Hx [<-|[]];
              destruct (index_in_in g _ Hx) as (z & Ez); congruence).
    all: try (intros k g' o' Hg' Ho'; destruct (lt_dec k (length (rv_ghosts st))) as [L|L];
      [rewrite nth_error_app1 in Hg' by exact L; rewrite nth_error_app1 in Ho' by lia; eapply I5; eauto|
       pose proof (nth_error_bound _ _ _ Hg') as Hb; rewrite app_length in Hb; cbn in Hb;
       rewrite nth_error_app2 in Hg', Ho' by lia;
       replace (k - length (rv_ghosts st)) with 0 in Hg' by lia; replace (k - length (rv_owners st)) with 0 in Ho' by lia;
       cbn in Hg', Ho'; injection Hg' as <-; injection Ho' as <-; auto]).
    all: try (intros x Hx; apply in_app_iff in Hx as [Hx|[<-|[]]];
      [destruct (I6 x Hx) as (G' & o' & H); exists G', o'; apply in_app_iff; now left
      |exists G, o; apply in_app_iff; right; now left]).
    all: apply Forall2_app;
      [eapply Forall2_impl; [|exact I7]; cbn; intros t e (A1 & A2); split; [exact A1|]; unfold lg in *;
       destruct (snd e <? size_local m1); [exact A2|]; rewrite nth_error_app1; [exact A2|]; eapply nth_error_bound; eauto
      |constructor; [|constructor]; cbn; split; [lia|]; unfold lg;
       destruct (Nat.ltb_spec (size_local m1 + length (rv_ghosts st)) (size_local m1)); [lia|];
       rewrite nth_error_app2 by lia;
       replace (size_local m1 + length (rv_ghosts st) - size_local m1 - length (rv_ghosts st)) with 0 by lia; reflexivity].
  - destruct I as (ext & exto & H). exists st, ext, exto. split; [exact E|exact H].
Qed.
End Recv.

Section Finalize.
Variables (P : nat) (nbx : (nat -> list nat) -> nat -> list nat) (maps0 maps1 : nat -> imap) (patterns : nat -> pattern).
Hypothesis HP : 0 < P.
Hypothesis Hnbx : nbx_oracle P nbx.
Hypothesis Hok0 : maps_ok P maps0.
Hypothesis Hok1 : maps_ok P maps1.
Hypothesis Hp : patterns_ok P maps0 maps1 patterns.
Notation cache q := (pt_cache (patterns q)).
Notation ls0 q := (size_local (maps0 q)).
Notation ls1 q := (size_local (maps1 q)).
Notation inbox := (inbox maps0 maps1 patterns).

Lemma local_ok r : r < P -> exists f ext exto ents, finalize_local P maps0 maps1 patterns r = Some f /\
  sp_col_ghosts f = im_ghosts (maps1 r) ++ ext /\ sp_col_owners f = im_owners (maps1 r) ++ exto /\ length ext = length exto /\
  NoDup (sp_col_ghosts f) /\
  (forall k g o, nth_error (sp_col_ghosts f) k = Some g -> nth_error (sp_col_owners f) k = Some o -> o < P /\ o <> r /\ owns (maps1 o) g) /\
  (forall g, In g ext -> exists G o, In (G, (g, o)) (inbox r)) /\
  Forall2 (fun t e => fst e + im_lo (maps0 r) = fst t /\ lg (maps1 r) (sp_col_ghosts f) (snd e) = Some (fst (snd t))) (inbox r) ents /\
  let n := ls0 r + num_ghosts (maps0 r) in
  let R := Rw (ls0 r) (fun i => vals i (cache r)) (fun i => vals i ents) in
  sp_edges f = concat (map R (seq 0 n)) /\ sp_offsets f = psums (map (fun k => length (R k)) (seq 0 n)) /\
  sp_offdiag f = map (fun k => lower_bound (R k) (ls1 r)) (seq 0 n).
Proof.
  intro Hr. unfold finalize_local. destruct (Hp r Hr) as (-> & _).
  rewrite bucket_spec by (intros e He; now apply (cache_rows P maps0 maps1 patterns Hp)). cbn [obind].
  destruct (inbox_ok P maps0 maps1 patterns Hok0 Hok1 Hp r Hr) as (sz & ->). cbn [obind].
  destruct (recv_ok P maps0 maps1 patterns Hok0 Hok1 Hp r Hr) as (st & ext & exto & E & I1 & I2 & I3 & I4 & I5 & I6 & I7).
  rewrite E. cbn [obind].
  assert (Hent : forall e, In e (rv_entries st) -> fst e < ls0 r /\ snd e < ls1 r + length (rv_ghosts st)).
  { intros e He. destruct (Forall2_in_r _ _ _ _ I7 He) as ([G [g o]] & Ht & A1 & A2). cbn in A1, A2.
    destruct (inbox_in P maps0 maps1 patterns Hok0 Hok1 Hp r G g o Hr Ht) as (HG & _). unfold owns in HG. unfold size_local at 1.
    split; [lia|]. unfold lg in A2. destruct (Nat.ltb_spec (snd e) (ls1 r)) as [L|L]; [lia|].
    apply nth_error_bound in A2. lia. }
  rewrite bucket_spec by (intros e He; now apply Hent). cbn [obind].
  destruct (rows_fold (ls0 r) (ls1 r) (ls0 r + num_ghosts (maps0 r)) (ls1 r + length (rv_ghosts st))
    (fun i => vals i (cache r)) (fun i => vals i (rv_entries st))) as (seen & Ef).
  - lia.
  - intros i c _ Hc. apply (cache_cols P maps0 maps1 patterns Hp r i c Hr) in Hc. rewrite I1, app_length.
    unfold num_ghosts in Hc. lia.
  - intros i c _ Hc. apply vals_in, Hent in Hc. apply Hc.
  - rewrite Ef. cbn [obind]. eexists. exists ext, exto, (rv_entries st). split; [reflexivity|].
    cbn [sp_col_ghosts sp_col_owners sp_edges sp_offsets sp_offdiag].
    split; [exact I1|]. split; [exact I2|]. split; [exact I3|]. split; [exact I4|]. split; [exact I5|].
    split; [exact I6|]. split; [exact I7|]. repeat split.
Qed.

Definition gh q := match finalize_local P maps0 maps1 patterns q with Some f => sp_col_ghosts f | None => [] end.
Definition go q := match finalize_local P maps0 maps1 patterns q with Some f => sp_col_owners f | None => [] end.

Lemma new_inputs : inputs_ok P (fun q => ls1 q) gh go.
Proof.
  intros r Hr. destruct (local_ok r Hr) as (f & ext & exto & ents & E & I1 & I2 & I3 & I4 & I5 & _).
  unfold gh, go. rewrite E. split; [|split].
  - rewrite I1, I2, !app_length. pose proof (mo_len _ _ Hok1 r Hr). lia.
  - exact I4.
  - intros k g o Hg Ho. destruct (I5 k g o Hg Ho) as (A & A' & A''). split; [exact A|]. split; [exact A'|].
    unfold owns in A''. pose proof (lo_is_sum P maps1 Hok1 o A) as Hlo. pose proof (mo_range _ _ Hok1 o A).
    rewrite seq_S, map_app, lsum_app, <- Hlo. cbn [map]. rewrite lsum_cons, lsum_nil. unfold size_local. cbn. lia.
Qed.

Lemma finalize_ok : exists newp newm,
  (forall r, r < P -> sp_finalize P nbx maps0 maps1 patterns r = Some (newp r, newm r)) /\
  maps_ok P newm /\
  forall r, r < P ->
    im_lo (newm r) = im_lo (maps1 r) /\ im_hi (newm r) = im_hi (maps1 r) /\
    (exists ext exto, im_ghosts (newm r) = im_ghosts (maps1 r) ++ ext /\ im_owners (newm r) = im_owners (maps1 r) ++ exto /\
       forall g, In g ext -> exists i q, i < ls0 r /\ q < P /\ inserted_on maps0 maps1 patterns q (im_lo (maps0 r) + i) g) /\
    exists f, pt_final (newp r) = Some f /\ sp_col_ghosts f = im_ghosts (newm r) /\ sp_col_owners f = im_owners (newm r) /\
      length (sp_offsets f) = S (ls0 r + num_ghosts (maps0 r)) /\ length (sp_offdiag f) = ls0 r + num_ghosts (maps0 r) /\
      (exists rows, sp_edges f = concat rows /\ sp_offsets f = psums (map (@length nat) rows)) /\
      spat_ok maps0 maps1 patterns P r (newm r) f.
Proof.
  destruct (built_ok P nbx Hnbx (fun q => ls1 q) gh go new_inputs HP) as (Hnew & Hb).
  set (newm := built P nbx (fun q => ls1 q) gh go) in *.
  exists (fun r => mkPat [] (finalize_local P maps0 maps1 patterns r)), newm. split; [|split; [exact Hnew|]].
  - intros r Hr. unfold sp_finalize. destruct (local_ok r Hr) as (f & _ & _ & _ & E & _). rewrite E. cbn [obind].
    destruct (Hb r Hr) as (Em & _). unfold finalize_map. fold gh go. rewrite Em. reflexivity.
  - intros r Hr. destruct (local_ok r Hr) as (f & ext & exto & ents & E & I1 & I2 & I3 & I4 & I5 & I6 & I7 & J1 & J2 & J3).
    destruct (Hb r Hr) as (Em & Eg & Eo & Es & _). unfold gh in Eg. unfold go in Eo. rewrite E in Eg, Eo.
    assert (Elo : im_lo (newm r) = im_lo (maps1 r)).
    { rewrite (lo_is_sum P newm Hnew r Hr), (lo_is_sum P maps1 Hok1 r Hr). f_equal. apply map_ext_in. intros q Hq.
      apply in_seq in Hq. apply Hb. lia. }
    assert (Ehi : im_hi (newm r) = im_hi (maps1 r)).
    { pose proof (mo_range _ _ Hnew r Hr). pose proof (mo_range _ _ Hok1 r Hr). unfold size_local in Es. lia. }
    assert (Elg : forall c, local_to_global (newm r) c = lg (maps1 r) (sp_col_ghosts f) c).
    { intro c. unfold local_to_global, lg. rewrite Es, Elo, Eg. reflexivity. }
    assert (Eold : forall c g, local_to_global (maps1 r) c = Some g -> local_to_global (newm r) c = Some g).
    { intros c g Hc. rewrite Elg. unfold local_to_global in Hc. unfold lg. destruct (c <? ls1 r); [exact Hc|].
      rewrite I1, nth_error_app1; [exact Hc|eapply nth_error_bound; eauto]. }
    split; [exact Elo|]. split; [exact Ehi|]. split.
    { exists ext, exto. rewrite Eg, Eo. split; [exact I1|]. split; [exact I2|]. intros g Hg.
      destruct (I6 g Hg) as (G & o & Hin).
      destruct (inbox_in P maps0 maps1 patterns Hok0 Hok1 Hp r G g o Hr Hin) as (HG & _ & _ & q & Hq & _ & Hins).
      unfold owns in HG. exists (G - im_lo (maps0 r)), q. split; [unfold size_local; lia|]. split; [exact Hq|].
      now replace (im_lo (maps0 r) + (G - im_lo (maps0 r))) with G by lia. }
    exists f. cbn [pt_final]. split; [exact E|]. split; [auto|]. split; [auto|].
    split; [rewrite J2, psums_length, map_length, seq_length; reflexivity|].
    split; [rewrite J3, map_length, seq_length; reflexivity|].
    split; [eexists; split; [exact J1|]; rewrite J2, map_map; reflexivity|].
    split.
    2:{ intros i g q Hi Hq Hins. destruct (Nat.eq_dec q r) as [->|Hne].
        - destruct Hins as (i' & c' & Hin & Hi' & Hc'). eauto.
        - destruct (inbox_has P maps0 maps1 patterns Hok0 Hok1 Hp r q (im_lo (maps0 r) + i) g Hr Hq Hne) as (o & Hin); auto.
          { unfold owns. unfold size_local in Hi. lia. }
          destruct (Forall2_in_l _ _ _ _ I7 Hin) as ([i' c'] & He & A1 & A2). cbn in A2. exists c'. now rewrite Elg. }
    intros i Hi. set (R := Rw (ls0 r) (fun i => vals i (cache r)) (fun i => vals i ents)) in *.
    exists (R i), (lower_bound (R i) (ls1 r)). rewrite J1, J2, J3. split; [now apply slice_groups|].
    split; [apply sort_uniq_sorted|]. split; [|split; [|rewrite Es; apply prefix_split, sort_uniq_sorted]].
    2:{ rewrite nth_error_map_some, nth_error_seq by exact Hi. reflexivity. }
    intro c. unfold R, Rw, raw. rewrite sort_uniq_in, in_app_iff, vals_in.
    destruct (Nat.ltb_spec i (ls0 r)) as [L|L].
    2:{ cbn. tauto. }
    rewrite vals_in. split.
    + intros [H|H].
      * pose proof (Hp r Hr) as (_ & Hb2). destruct (Hb2 _ _ H) as (_ & Hc).
        apply (l2g_some (maps1 r) (mo_range _ _ Hok1 r Hr)) in Hc. destruct Hc as (g & Hg).
        exists g, r. split; [auto|]. split; [exact Hr|]. exists i, c. split; [exact H|]. split; [now apply l2g_own|exact Hg].
      * destruct (Forall2_in_r _ _ _ _ I7 H) as ([G [g o]] & Ht & A1 & A2). cbn in A1, A2.
        destruct (inbox_in P maps0 maps1 patterns Hok0 Hok1 Hp r G g o Hr Ht) as (_ & _ & _ & q & Hq & _ & Hins).
        exists g, q. rewrite Elg. split; [exact A2|]. split; [exact Hq|]. rewrite Nat.add_comm, A1. exact Hins.
    + intros (g & q & Hc & Hq & Hins). destruct (Nat.eq_dec q r) as [->|Hne].
      * destruct Hins as (i' & c' & Hin & Hi' & Hc'). left.
        assert (i' = i) by (eapply (l2g_inj P maps0 r); eauto; now apply l2g_own).
        assert (c' = c) by (eapply (l2g_inj P newm r); eauto). now subst.
      * right. destruct (inbox_has P maps0 maps1 patterns Hok0 Hok1 Hp r q (im_lo (maps0 r) + i) g Hr Hq Hne) as (o & Hin); auto.
        { unfold owns. unfold size_local in L. lia. }
        destruct (Forall2_in_l _ _ _ _ I7 Hin) as ([i' c'] & He & A1 & A2). cbn in A1, A2.
        assert (i' = i) by lia. rewrite <- Elg in A2. assert (c' = c) by (eapply (l2g_inj P newm r); eauto). now subst.
Qed.
End Finalize.

(** * Histories of insertions *)
Lemma run_ok ops : forall p, pt_final p = None -> exists p', sp_run ops p = Some p' /\ pt_final p' = None /\
  forall i c, In (i, c) (pt_cache p') <-> In (i, c) (pt_cache p) \/ exists op, In op ops /\ inserts op i c.
Proof.
  induction ops as [|op ops IH]; intros p Hp.
  - exists p. cbn. split; [reflexivity|]. split; [exact Hp|]. intros i c. split; [auto|]. intros [H|(o & [] & _)]. exact H.
  - assert (K : exists l, sp_apply p op = Some (mkPat (pt_cache p ++ l) None) /\ forall i c, In (i, c) l <-> inserts op i c).
    { destruct op as [row col|rows cols|rows]; cbn [sp_apply].
      - unfold sp_insert. rewrite Hp. eexists. split; [reflexivity|]. intros i c. cbn. split; [intros [E|[]]; now injection E|intros (-> & ->); now left].
      - unfold sp_insert_block. rewrite Hp. eexists. split; [reflexivity|]. intros i c. rewrite in_concat. cbn. split.
        + intros (l & Hl & H). apply in_map_iff in Hl as (row & <- & Hr). apply in_map_iff in H as (col & E & Hc). injection E as -> ->. auto.
        + intros (Hi & Hc). exists (map (pair i) cols). split; [apply in_map_iff; eauto|]. apply in_map_iff. eauto.
      - unfold sp_insert_diagonal. rewrite Hp. eexists. split; [reflexivity|]. intros i c. cbn. clear.
        induction rows as [|x t IH]; cbn; [tauto|]. rewrite IH. split.
        + intros [E|(H & ->)]; [injection E as <- <-; auto|auto].
        + intros ([->|H] & ->); auto. }
    destruct K as (l & E & Hl). unfold sp_run in *. cbn [ofold]. rewrite E. cbn [obind].
    destruct (IH (mkPat (pt_cache p ++ l) None) eq_refl) as (p' & E' & F & I). exists p'. split; [exact E'|]. split; [exact F|].
    intros i c. rewrite I. cbn [pt_cache]. rewrite in_app_iff, Hl. cbn. split.
    + intros [[H|H]|(o & Ho & H)]; [auto|right; exists op; auto|right; exists o; auto].
    + intros [H|(o & [<-|Ho] & H)]; [auto|auto|right; exists o; auto].
Qed.

Lemma apply_closed p f op : pt_final p = Some f -> sp_apply p op = None.
Proof. intro H. destruct op; cbn; [unfold sp_insert|unfold sp_insert_block|unfold sp_insert_diagonal]; now rewrite H. Qed.

Lemma exchange_none {A} P srcs dests (send : nat -> option (sbuf A)) r s : In s (srcs r) -> send s = None ->
  exchange P srcs dests send r = None.
Proof.
  intros Hs E. unfold exchange, neigh_alltoallv, neigh_alltoall.
  destruct (forallb _ (dests r)); [|reflexivity].
  assert (G : forall {C} (f : nat -> option C), f s = None -> omap f (srcs r) = None).
  { intros C f Hf. clear - Hs Hf. induction (srcs r) as [|x t IH]; [destruct Hs|]. cbn. destruct Hs as [->|Hs].
    - now rewrite Hf.
    - destruct (f x); [|reflexivity]. cbn. now rewrite (IH Hs). }
  rewrite G; [reflexivity|]. destruct (s <? P); [|reflexivity]. now rewrite E.
Qed.

Lemma insertions_statement : forall ops, exists p, sp_run ops pt_empty = Some p /\ pt_final p = None /\
    forall i c, In (i, c) (pt_cache p) <-> exists op, In op ops /\ inserts op i c.
Proof.
  intro ops. destruct (run_ok ops pt_empty eq_refl) as (p & E & F & I). exists p. split; [exact E|]. split; [exact F|].
  intros i c. rewrite I. cbn. tauto.
Qed.

Lemma misuse_statement : forall p, match pt_final p with
  | None => sp_graph p = None /\ sp_num_nonzeros p = None /\ sp_off_diagonal_offsets p = None /\
            (forall i, sp_nnz_diag p i = None) /\ (forall i, sp_nnz_off_diag p i = None) /\
            forall m, sp_column_indices p m = None
  | Some _ => (forall op, sp_apply p op = None) /\
              forall P nbx maps0 maps1 patterns r, patterns r = p -> sp_finalize P nbx maps0 maps1 patterns r = None
  end.
Proof.
  intro p. destruct (pt_final p) as [f|] eqn:E.
  - split; [intro op; eapply apply_closed; eauto|]. intros P nbx maps0 maps1 patterns r Hr.
    unfold sp_finalize, finalize_local. rewrite Hr, E. reflexivity.
  - unfold sp_graph, sp_num_nonzeros, sp_off_diagonal_offsets, sp_nnz_diag, sp_nnz_off_diag, sp_column_indices. rewrite E. cbn. auto 10.
Qed.

Lemma accessors_statement : forall P maps0 maps1 patterns r m1' p f, pt_final p = Some f ->
    length (sp_offsets f) = S (size_local (maps0 r) + num_ghosts (maps0 r)) ->
    spat_ok maps0 maps1 patterns P r m1' f -> sp_col_ghosts f = im_ghosts m1' ->
    sp_graph p = Some (sp_edges f, sp_offsets f) /\ sp_num_nonzeros p = Some (length (sp_edges f)) /\
    sp_column_indices p m1' = Some (global_indices m1') /\
    forall i, i < size_local (maps0 r) + num_ghosts (maps0 r) -> exists row nd no,
      slice_at (sp_edges f) (sp_offsets f) i = Some row /\
      sp_nnz_diag p i = Some nd /\ sp_nnz_off_diag p i = Some no /\
      nd = length (filter (fun c => c <? size_local m1') row) /\ nd + no = length row.
Proof.
  intros P maps0 maps1 patterns r m1' p f E Hl Hs Hg.
  unfold sp_graph, sp_num_nonzeros, sp_column_indices, sp_nnz_diag, sp_nnz_off_diag. rewrite E. cbn [obind].
  split; [reflexivity|]. split; [reflexivity|]. split; [rewrite Hg; reflexivity|].
  intros i Hi. destruct (proj1 Hs i Hi) as (row & d & H1 & H2 & _ & H3 & H4 & H5). rewrite H3. cbn [obind].
  pose proof H1 as H1'. unfold slice_at in H1'. apply obind_some in H1' as (a & Ea & H1'). apply obind_some in H1' as (b & Eb & H1').
  rewrite Ea, Eb. cbn [obind]. apply slice_some in H1' as (L1 & L2 & Er).
  assert (Hlen : length row = b - a) by (rewrite Er, firstn_length, skipn_length; lia).
  exists row, d, (b - a - d). split; [exact H1|]. split; [reflexivity|]. split; [reflexivity|]. split; [|lia].
  rewrite <- (firstn_skipn d row), filter_app, app_length.
  rewrite filter_all.
  2:{ intros x Hx. apply In_nth_error in Hx as (k & Hk). apply Nat.ltb_lt.
      pose proof (nth_error_bound _ _ _ Hk) as Hb. rewrite firstn_length in Hb.
      assert (Hk' : nth_error row k = Some x) by (rewrite <- (firstn_skipn d row), nth_error_app1; auto; rewrite firstn_length; lia).
      apply (H5 k x Hk'). lia. }
  rewrite filter_none.
  2:{ intros x Hx. apply In_nth_error in Hx as (k & Hk). apply Nat.ltb_ge.
      assert (Hk' : nth_error row (d + k) = Some x).
      { rewrite <- (firstn_skipn d row), nth_error_app2; rewrite firstn_length; [|lia].
        now replace (d + k - min d (length row)) with k by lia. }
      destruct (Nat.lt_ge_cases x (size_local m1')) as [L|L]; [|exact L]. apply (H5 _ _ Hk') in L. lia. }
  rewrite firstn_length. cbn. lia.
Qed.
