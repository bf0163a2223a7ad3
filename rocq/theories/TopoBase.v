(** Lemmas about the helpers of create_topology. *)
From Verif Require Import Base BaseProofs Algo AlgoProofs BucketProofs World WorldProofs IndexMap IndexMapProofs ImSharedProofs
  GhostIdx GhostIdxProofs MeshCreate MeshCreateProofs RoundTrip Sharing SharingProofs TopoCreate.
Open Scope nat_scope.

Lemma set_difference_spec a : forall b, StronglySorted Z.lt a -> StronglySorted Z.lt b ->
  StronglySorted Z.lt (set_difference a b) /\ forall v, In v (set_difference a b) <-> In v a /\ ~ In v b.
Proof.
  induction a as [|x a IHa]; intros b Ha Hb.
  { cbn [set_difference]. split; [constructor|]. intro v. split; [intros []|intros ([] & _)]. }
  inversion Ha as [|? ? Ha' Hx]; subst. rewrite Forall_forall in Hx.
  induction b as [|y b IHb].
  { change (set_difference (x :: a) []) with (x :: a). split; [exact Ha|]. intro v. cbn. tauto. }
  inversion Hb as [|? ? Hb' Hy]; subst. rewrite Forall_forall in Hy.
  change (set_difference (x :: a) (y :: b)) with
    (if (x <? y)%Z then x :: set_difference a (y :: b) else if (y <? x)%Z then set_difference (x :: a) b else set_difference a b).
  destruct (Z.ltb_spec x y) as [H|H].
  - destruct (IHa (y :: b) Ha' Hb) as (S & I). split.
    + constructor; [exact S|]. apply Forall_forall. intros v Hv. apply I in Hv as (Hv & _). now apply Hx.
    + intro v. cbn [In]. rewrite I. cbn [In]. split.
      * intros [E|(A & B)]; [subst v|tauto]. split; [auto|]. intros [E|E]; [lia|]. specialize (Hy _ E). lia.
      * intros ([E|A] & B); [auto|]. right. auto.
  - destruct (Z.ltb_spec y x) as [H'|H'].
    + destruct (IHb Hb') as (S & I). split; [exact S|]. intro v. rewrite I. cbn [In]. split.
      * intros (A & B). split; [exact A|]. intros [E|E]; [|contradiction]. subst y. destruct A as [E|A]; [lia|]. specialize (Hx _ A). lia.
      * intros (A & B). split; [exact A|]. intro E. apply B. now right.
    + assert (x = y) by lia. subst y. destruct (IHa b Ha' Hb') as (S & I). split; [exact S|]. intro v. rewrite I. cbn [In]. split.
      * intros (A & B). split; [auto|]. intros [E|E]; [|contradiction]. subst v. specialize (Hx _ A). lia.
      * intros ([E|A] & B); [subst v; exfalso; apply B; auto|]. split; [exact A|]. intro E. apply B. now right.
Qed.

Lemma omap_app {A B} (f : A -> option B) a : forall b, omap f (a ++ b) = (x <- omap f a ;; y <- omap f b ;; Some (x ++ y)).
Proof.
  induction a as [|e a IH]; intro b; cbn [app omap obind].
  - destruct (omap f b); reflexivity.
  - destruct (f e) as [x|]; [|reflexivity]. cbn [obind]. rewrite IH. destruct (omap f a) as [xs|]; [|reflexivity]. cbn [obind]. destruct (omap f b); reflexivity.
Qed.
Lemma zleb_total x y : (x <=? y)%Z = true \/ (y <=? x)%Z = true.
Proof. destruct (Z.leb_spec x y), (Z.leb_spec y x); auto; lia. Qed.
Lemma zleb_trans x y z : (x <=? y)%Z = true -> (y <=? z)%Z = true -> (x <=? z)%Z = true.
Proof. intros H1 H2. apply Z.leb_le in H1, H2. apply Z.leb_le. lia. Qed.

Lemma zsort_strict l : NoDup l -> StronglySorted Z.lt (isort Z.leb l).
Proof.
  intro Hn. assert (Hn' : NoDup (isort Z.leb l)) by (eapply Permutation_NoDup; [apply isort_perm|exact Hn]).
  pose proof (isort_sorted _ Z.leb zleb_total zleb_trans l) as Hs. clear Hn.
  induction Hs as [|x t Ht IH Hx]; [constructor|]. inversion Hn' as [|? ? Hx' Hn]; subst. constructor; [now apply IH|].
  rewrite Forall_forall in *. intros y Hy. specialize (Hx y Hy). apply Z.leb_le in Hx.
  assert (x <> y) by (intros ->; contradiction). lia.
Qed.

Lemma zsearch_nth l i x : StronglySorted Z.lt l -> nth_error l i = Some x -> zsearch l x = Some i.
Proof. intros Hs Hi. unfold zsearch. rewrite (zprefix_nth l i x Hs Hi), Hi, Z.eqb_refl. reflexivity. Qed.
Lemma zsearch_none l x : ~ In x l -> zsearch l x = None.
Proof.
  intro H. unfold zsearch. cbv zeta. destruct (nth_error l (prefix_len (fun y => (y <? x)%Z) l)) as [y|] eqn:E; [|reflexivity].
  destruct (Z.eqb_spec y x) as [->|_]; [|reflexivity]. exfalso. apply H. eapply nth_error_In; eauto.
Qed.

Lemma is_identity_nth l : StronglySorted Z.lt l -> is_identity l = true ->
  forall i x, nth_error l i = Some x <-> x = Z.of_nat i /\ i < length l.
Proof.
  intros Hs Hi. unfold is_identity in Hi. destruct l as [|a t] eqn:El; [discriminate|]. rewrite <- El in *. apply andb_true_iff in Hi as (H1 & H2).
  apply Z.eqb_eq in H1, H2. assert (Hl : 0 < length l) by (rewrite El; cbn; lia).
  assert (H0 : nth_error l 0 = Some 0%Z) by (rewrite El; cbn; congruence).
  assert (Hn : nth_error l (length l - 1) = Some (Z.of_nat (length l) - 1)%Z).
  { rewrite <- H2. rewrite (nth_error_nth' l 0%Z) by lia. f_equal. clear - Hl. 
    destruct (exists_last (l := l)) as (m & z & ->); [intros ->; cbn in Hl; lia|]. rewrite last_last, app_nth2; rewrite app_length; cbn [length]; [|lia].
    now replace (length m + 1 - 1 - length m) with 0 by lia. }
  assert (G : forall i x, nth_error l i = Some x -> x = Z.of_nat i).
  { intros i x Hx. pose proof (nth_error_bound _ _ _ Hx) as Hb. pose proof (SSZ_range l Hs 0 _ H0 i x Hx) as L1.
    pose proof (SSZ_range l Hs i _ Hx (length l - 1 - i) (Z.of_nat (length l) - 1)%Z) as L2.
    replace (i + (length l - 1 - i)) with (length l - 1) in L2 by lia. specialize (L2 Hn). lia. }
  intros i x. split.
  - intro Hx. split; [now apply G|]. eapply nth_error_bound; eauto.
  - intros (-> & Hb). destruct (nth_error_lt l i Hb) as (y & Hy). rewrite Hy. f_equal. now apply G.
Qed.

Lemma zfind_none {V} k (l : list (Z * V)) : (forall v, ~ In (k, v) l) -> zfind k l = None.
Proof.
  induction l as [|[k' v] t IH]; intro H; [reflexivity|]. cbn [zfind]. destruct (Z.eqb_spec k' k) as [->|_].
  - exfalso. apply (H v). now left.
  - apply IH. intros w Hw. apply (H w). now right.
Qed.

Lemma position_in owned i v : StronglySorted Z.lt owned -> nth_error owned i = Some v -> position owned v = Some (Some i).
Proof.
  intros Hs Hi. unfold position. destruct (is_identity owned) eqn:Ei.
  - apply (is_identity_nth owned Hs Ei) in Hi as (-> & Hb). destruct (Z.ltb_spec (Z.of_nat i) (Z.of_nat (length owned))); [|lia].
    destruct (Z.leb_spec 0 (Z.of_nat i)); [|lia]. now rewrite Nat2Z.id.
  - rewrite (zfind_pos owned 0 v i); [reflexivity| |exact Hi]. now apply SSZ_NoDup.
Qed.
Lemma position_out owned v : StronglySorted Z.lt owned -> (0 <= v)%Z -> ~ In v owned -> position owned v = Some None.
Proof.
  intros Hs Hv Hn. unfold position. destruct (is_identity owned) eqn:Ei.
  - destruct (Z.ltb_spec v (Z.of_nat (length owned))) as [H|_]; [|reflexivity]. exfalso. apply Hn.
    apply (nth_error_In owned (Z.to_nat v)). apply (is_identity_nth owned Hs Ei). lia.
  - rewrite zfind_none; [reflexivity|]. intros w Hw. apply in_combine_l in Hw. contradiction.
Qed.

(** All entries: assigned ones have the numbers 0, 1, ... *)
Definition somes (l : list (option nat)) : list nat := concat (map (fun o => match o with Some x => [x] | None => [] end) l).
Lemma somes_upd l i x l' : nth_error l i = Some None -> upd l i (Some x) = Some l' -> Permutation (somes l') (x :: somes l).
Proof.
  intros Hi Hu. apply upd_split in Hu as (p & o & q & -> & <- & ->). rewrite nth_error_app2 in Hi by lia. rewrite Nat.sub_diag in Hi.
  cbn in Hi. injection Hi as ->. unfold somes. rewrite !map_app, !concat_app. cbn [map concat app]. symmetry. apply Permutation_middle.
Qed.

Lemma number_owned_ok owned cells : StronglySorted Z.lt owned -> (forall v, In v (concat cells) -> (0 <= v)%Z) ->
  (forall v, In v owned -> In v (concat cells)) ->
  exists lo, number_owned owned cells = Some (map Some lo) /\ Permutation lo (seq 0 (length owned)).
Proof.
  intros Hs Hc Hin. unfold number_owned.
  destruct (ofold_prefix_ind (number_step (position owned))
    (fun p (st : list (option nat) * nat) => length (fst st) = length owned /\ Permutation (somes (fst st)) (seq 0 (snd st)) /\
       forall i v, nth_error owned i = Some v -> (nth_error (fst st) i <> Some None <-> In v p))
    (concat cells) (repeat None (length owned), 0)) as (st & E & H1 & H2 & H3).
  - split; [apply repeat_length|]. split.
    + cbn [fst snd]. unfold somes. generalize (length owned). intro m. induction m; cbn; auto.
    + intros i v Hi. cbn [fst]. rewrite nth_error_repeat by (eapply nth_error_bound; eauto). split; [congruence|intros []].
  - intros p v q [l m] El (H1 & H2 & H3). cbn [fst snd] in *. unfold number_step.
    assert (Hv : (0 <= v)%Z) by (apply Hc; rewrite El; apply in_elt).
    destruct (in_dec Z.eq_dec v owned) as [Hi|Hni].
    + apply In_nth_error in Hi as (i & Hi). rewrite (position_in owned i v Hs Hi). cbn [obind fst snd].
      destruct (nth_error_lt l i) as (o & Ho); [rewrite H1; eapply nth_error_bound; eauto|]. rewrite Ho. cbn [obind]. destruct o as [x|].
      * eexists. split; [reflexivity|]. cbn [fst snd]. split; [exact H1|]. split; [exact H2|].
        intros j w Hj. rewrite (H3 j w Hj), in_app_iff. cbn [In]. split; [tauto|]. intros [H|[<-|[]]]; [exact H|].
        apply (H3 j v Hj). assert (i = j) by (eapply NoDup_nth_error_inj; [apply SSZ_NoDup, Hs|exact Hi|exact Hj]). subst j. congruence.
      * destruct (upd_some l i (Some m)) as (l' & Hu); [eapply nth_error_bound; eauto|]. rewrite Hu. cbn [obind].
        eexists. split; [reflexivity|]. cbn [fst snd]. split; [rewrite (upd_length _ _ _ _ Hu); exact H1|]. split.
        -- rewrite (somes_upd l i m l' Ho Hu), H2. rewrite seq_S. cbn [plus]. apply Permutation_cons_append.
        -- intros j w Hj. rewrite (upd_nth _ _ _ j _ Hu). destruct (Nat.eqb_spec i j) as [->|N].
           ++ assert (w = v) by congruence. subst w. rewrite in_app_iff. cbn [In]. split; [auto|congruence].
           ++ rewrite (H3 j w Hj), in_app_iff. cbn [In]. split; [tauto|]. intros [H|[<-|[]]]; [exact H|]. exfalso. apply N.
              eapply NoDup_nth_error_inj; [apply SSZ_NoDup, Hs|exact Hi|exact Hj].
    + rewrite (position_out owned v Hs Hv Hni). cbn [obind]. eexists. split; [reflexivity|]. cbn [fst snd]. split; [exact H1|]. split; [exact H2|].
      intros j w Hj. rewrite (H3 j w Hj), in_app_iff. cbn [In]. split; [tauto|]. intros [H|[<-|[]]]; [exact H|]. exfalso. apply Hni. eapply nth_error_In; eauto.
  - rewrite E. destruct st as [l m]. cbn [obind fst snd] in *. exists (somes l).
    assert (El : l = map Some (somes l)).
    { assert (G : forall o, In o l -> o <> None).
      { intros o Ho ->. apply In_nth_error in Ho as (i & Hi). destruct (nth_error_lt owned i) as (v & Hv); [rewrite <- H1; eapply nth_error_bound; eauto|].
        apply (H3 i v Hv); [|exact Hi]. apply Hin. eapply nth_error_In; eauto. }
      clear - G. induction l as [|[x|] t IH]; [reflexivity| |exfalso; apply (G None); [now left|reflexivity]].
      unfold somes in *. cbn [map concat app]. f_equal. apply IH. intros o Ho. apply G. now right. }
    split; [now rewrite <- El|]. rewrite H2. assert (El' : m = length owned).
    { rewrite <- H1. rewrite El at 1. rewrite map_length. pose proof (Permutation_length H2) as L. rewrite seq_length in L. now symmetry. }
    now rewrite El'.
Qed.

(** ** Updates of mapped lists *)
Lemma upd_map_at {A B} (f g : A -> B) l i w : NoDup l -> nth_error l i = Some w ->
  (forall v, In v l -> v <> w -> g v = f v) -> upd (map f l) i (g w) = Some (map g l).
Proof.
  intros Hn Hi H. destruct (upd_some (map f l) i (g w)) as (l' & Hu); [rewrite map_length; eapply nth_error_bound; eauto|].
  rewrite Hu. f_equal. apply nth_error_ext. intro j. rewrite (upd_nth _ _ _ j _ Hu), !nth_error_map_some.
  destruct (Nat.eqb_spec i j) as [->|N]; [now rewrite Hi|]. destruct (nth_error l j) as [v|] eqn:Ej; [|reflexivity]. cbn. f_equal. symmetry.
  apply H; [eapply nth_error_In; eauto|]. intros ->. apply N. eapply NoDup_nth_error_inj; eauto.
Qed.

(** Position in [l] from [n], as local index *)
Definition zidx (n : nat) (l : list Z) (v : Z) : option nat := zfind v (combine l (seq n (length l))).
Lemma zidx_nth n l i v : NoDup l -> nth_error l i = Some v -> zidx n l v = Some (n + i).
Proof. intros Hn Hi. now apply zfind_pos. Qed.
Lemma zidx_none n l v : ~ In v l -> zidx n l v = None.
Proof. intro H. apply zfind_none. intros w Hw. apply in_combine_l in Hw. contradiction. Qed.
Lemma zidx_snoc_neq n l w v : w <> v -> zidx n (l ++ [w]) v = zidx n l v.
Proof.
  intro H. unfold zidx. rewrite app_length, seq_app. cbn [length seq].
  assert (G : forall (a : list Z) b, length a = length b -> zfind v (combine (a ++ [w]) (b ++ [n + length l])) = zfind v (combine a b)).
  { induction a as [|x a IH]; intros [|y b] E; try discriminate.
    - cbn. destruct (Z.eqb_spec w v); [contradiction|reflexivity].
    - cbn. destruct (x =? v)%Z; [reflexivity|]. apply IH. now injection E. }
  apply G. now rewrite seq_length.
Qed.

(** ** g2l pairs *)
Lemma olocal_total a b : olocal_leb a b = true \/ olocal_leb b a = true.
Proof. destruct a, b; cbn; auto. apply nleb_total. Qed.
Lemma olocal_trans a b c : olocal_leb a b = true -> olocal_leb b c = true -> olocal_leb a c = true.
Proof. destruct a, b, c; cbn; auto; try discriminate. apply nleb_trans. Qed.
Lemma olocal_antisym a b : olocal_leb a b = true -> olocal_leb b a = true -> a = b.
Proof. destruct a, b; cbn; try discriminate; auto. intros H1 H2. f_equal. now apply nleb_antisym. Qed.
Lemma g2l_iff a b : g2l_leb a b = true <-> (fst a < fst b)%Z \/ fst a = fst b /\ olocal_leb (snd a) (snd b) = true.
Proof. unfold g2l_leb. rewrite orb_true_iff, andb_true_iff, Z.ltb_lt, Z.eqb_eq. tauto. Qed.

Lemma g2l_sort (f : Z -> option nat) l A : StronglySorted Z.lt A -> Permutation l (map (fun v => (v, f v)) A) ->
  isort g2l_leb l = map (fun v => (v, f v)) A.
Proof.
  intros Hs Hp. apply isort_unique.
  - intros a b. rewrite !g2l_iff. destruct (Z.lt_trichotomy (fst a) (fst b)) as [H|[H|H]]; [auto| |auto]. rewrite H. destruct (olocal_total (snd a) (snd b)); auto.
  - intros a b c. rewrite !g2l_iff. intros [H1|(H1 & H1')] [H2|(H2 & H2')]; try (left; lia). right. split; [congruence|]. eapply olocal_trans; eauto.
  - intros [a a'] [b b']. rewrite !g2l_iff. cbn [fst snd]. intros [H1|(H1 & H1')] [H2|(H2 & H2')]; try lia. subst b. f_equal. now apply olocal_antisym.
  - clear Hp. induction Hs as [|x t Ht IH Hx]; [constructor|]. cbn [map]. constructor; [exact IH|]. rewrite Forall_forall in *. intros e He.
    apply in_map_iff in He as (v & <- & Hv). apply g2l_iff. left. cbn. now apply Hx.
  - exact Hp.
Qed.

(** ** Buckets by neighbour *)
Lemma bucket_by_dest {A} dest (kvs : list (nat * A)) : StronglySorted lt dest -> (forall kv, In kv kvs -> In (fst kv) dest) ->
  exists kvs', omap (fun kv : nat * A => k <- find_sorted dest (fst kv) ;; Some (k, snd kv)) kvs = Some kvs' /\
    push_all (length dest) kvs' = Some (map (fun d => vals d kvs) dest).
Proof.
  intros Hs Hin. set (ix := fun d => match index_in d dest with Some k => k | None => 0 end).
  assert (Hix : forall d, In d dest -> find_sorted dest d = Some (ix d) /\ nth_error dest (ix d) = Some d).
  { intros d Hd. rewrite find_sorted_spec by exact Hs. unfold ix. destruct (index_in_in d dest Hd) as (k & Ek). rewrite Ek. split; [reflexivity|]. now apply index_in_some. }
  exists (map (fun kv => (ix (fst kv), snd kv)) kvs). split.
  - apply omap_map. intros kv Hkv. destruct (Hix (fst kv) (Hin kv Hkv)) as (-> & _). reflexivity.
  - rewrite push_all_spec.
    + f_equal. apply map_seq_nth. intros k d Hk. induction kvs as [|[d' x] t IH]; [reflexivity|].
      assert (IH' := IH (fun kv H => Hin kv (or_intror H))). unfold vals in *. cbn [map filter fst snd].
      destruct (Hix d' (Hin (d', x) (or_introl eq_refl))) as (_ & Hn).
      destruct (Nat.eqb_spec (ix d') k) as [E|N].
      * rewrite E, Hk in Hn. injection Hn as <-. rewrite Nat.eqb_refl. cbn [map snd]. now rewrite IH'.
      * destruct (Nat.eqb_spec d' d) as [->|_]; [|exact IH']. exfalso. apply N. eapply NoDup_nth_error_inj; [apply SS_lt_NoDup, Hs|exact Hn|exact Hk].
    + intros kv Hkv. apply in_map_iff in Hkv as (kv' & <- & Hkv'). cbn. destruct (Hix _ (Hin _ Hkv')) as (_ & Hn). eapply nth_error_bound; eauto.
Qed.
