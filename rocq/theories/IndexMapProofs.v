From Verif Require Import Base BaseProofs BucketProofs Algo AlgoProofs Nbx World WorldProofs IndexMap IndexMapSpec.

(** ** Groups of sorted pairs *)
Definition pack (k : nat) (l : list nat) : list (nat * nat) := map (pair k) l.

Lemma vals_nil {V} k : @vals V k [] = []. Proof. reflexivity. Qed.
Lemma vals_in {V} k (l : list (nat * V)) v : In v (vals k l) <-> In (k, v) l.
Proof.
  unfold vals. rewrite in_map_iff. split.
  - intros ([k' v'] & <- & H). apply filter_In in H as (H & E). apply Nat.eqb_eq in E. cbn in *. now subst.
  - intro H. exists (k, v). split; [reflexivity|]. apply filter_In. split; [exact H|apply Nat.eqb_refl].
Qed.
Lemma vals_pack k l k' : vals k' (pack k l) = if k =? k' then l else [].
Proof.
  unfold pack. induction l as [|x t IH]; cbn.
  - destruct (k =? k'); reflexivity.
  - unfold vals in *. cbn. destruct (k =? k'); cbn; [now rewrite IH|exact IH].
Qed.
Lemma vals_concat {V} k (L : list (list (nat * V))) : vals k (concat L) = concat (map (vals k) L).
Proof. induction L as [|x t IH]; [reflexivity|]. cbn [concat map]. now rewrite vals_app, IH. Qed.

Lemma filter_key_vals k (l : list (nat * nat)) : filter (fun p => fst p =? k) l = pack k (vals k l).
Proof.
  unfold pack, vals. rewrite map_map. symmetry. rewrite <- (map_id (filter _ l)) at 2. apply map_ext_in.
  intros [a b] H. apply filter_In in H as (_ & E). apply Nat.eqb_eq in E. cbn in *. now subst.
Qed.

Lemma filter_split_perm {A} (p : A -> bool) l : Permutation l (filter p l ++ filter (fun x => negb (p x)) l).
Proof.
  induction l as [|x t IH]; [constructor|]. cbn. destruct (p x); cbn.
  - now apply perm_skip.
  - rewrite <- Permutation_middle. now apply perm_skip.
Qed.

Lemma groups_perm ks : forall l : list (nat * nat), NoDup ks -> (forall p, In p l -> In (fst p) ks) ->
  Permutation l (concat (map (fun k => pack k (vals k l)) ks)).
Proof.
  induction ks as [|k ks IH]; intros l Hn Hin.
  - destruct l as [|p t]; [constructor|]. destruct (Hin p (or_introl eq_refl)).
  - inversion Hn as [|? ? Hk Hn']; subst. cbn.
    rewrite (filter_split_perm (fun p => fst p =? k) l) at 1. rewrite filter_key_vals.
    apply Permutation_app_head.
    rewrite (IH (filter (fun p => negb (fst p =? k)) l) Hn').
    + match goal with |- Permutation ?a ?b => replace a with b; [apply Permutation_refl|] end.
      f_equal. apply map_ext_in. intros k' Hk'. f_equal. unfold vals. f_equal. rewrite filter_filter.
      apply filter_ext. intros [a b]. cbn. destruct (Nat.eqb_spec a k'), (Nat.eqb_spec a k); subst; auto; contradiction.
    + intros p Hp. apply filter_In in Hp as (Hp & E). destruct (Hin p Hp) as [->|]; [|assumption].
      rewrite Nat.eqb_refl in E. discriminate.
Qed.

Lemma groups_sorted ks (b : nat -> list nat) : StronglySorted lt ks ->
  (forall k, StronglySorted le (b k)) ->
  StronglySorted (fun x y => pair_leb x y = true) (concat (map (fun k => pack k (b k)) ks)).
Proof.
  intros Hs Hb. induction Hs as [|k ks Hks IH Hk]; cbn; [constructor|]. apply SS_app.
  - specialize (Hb k). unfold pack. induction Hb as [|x t Ht IHt Hx]; cbn; constructor; auto.
    rewrite Forall_forall in *. intros p Hp. apply in_map_iff in Hp as (y & <- & Hy). apply pair_leb_iff. right. cbn. auto.
  - exact IH.
  - intros x y Hx Hy. apply in_map_iff in Hx as (v & <- & _). apply in_concat in Hy as (l & Hl & Hy).
    apply in_map_iff in Hl as (k' & <- & Hk'). apply in_map_iff in Hy as (v' & <- & _).
    rewrite Forall_forall in Hk. specialize (Hk k' Hk'). apply pair_leb_iff. cbn. lia.
Qed.

Lemma concat_map_perm {A B} (f g : A -> list B) l : (forall x, In x l -> Permutation (f x) (g x)) ->
  Permutation (concat (map f l)) (concat (map g l)).
Proof.
  induction l as [|x t IH]; intro H; cbn; [constructor|]. apply Permutation_app; [apply H; now left|].
  apply IH. intros; apply H; now right.
Qed.

Lemma psort_groups ks l : StronglySorted lt ks -> (forall p, In p l -> In (fst p) ks) ->
  isort pair_leb l = concat (map (fun k => pack k (isort Nat.leb (vals k l))) ks).
Proof.
  intros Hs Hin. apply psort_unique.
  - apply groups_sorted; [exact Hs|]. intro k. apply nsort_sorted.
  - rewrite (groups_perm ks l) at 1; [|now apply SS_lt_NoDup|exact Hin].
    apply concat_map_perm. intros k _. unfold pack. apply Permutation_map, isort_perm.
Qed.

Lemma prefix_pack k (l : list nat) rest : (forall p, In p rest -> fst p <> k) ->
  prefix_len (fun x : nat * nat => fst x =? k) (pack k l ++ rest) = length l.
Proof.
  intro H. rewrite prefix_len_app.
  - unfold pack. rewrite map_length. destruct rest as [|p t]; [cbn; lia|].
    rewrite prefix_len_stop; [lia|]. apply Nat.eqb_neq. apply H. now left.
  - intros p Hp. apply in_map_iff in Hp as (v & <- & _). apply Nat.eqb_refl.
Qed.

Lemma skipn_pack k (l : list nat) rest : skipn (length l) (pack k l ++ rest) = rest.
Proof.
  unfold pack. replace (length l) with (length (map (pair k) l)) by apply map_length.
  rewrite skipn_app, skipn_all, Nat.sub_diag. reflexivity.
Qed.

Lemma in_groups ks (b : nat -> list nat) p : In p (concat (map (fun k => pack k (b k)) ks)) -> In (fst p) ks.
Proof.
  intro H. apply in_concat in H as (l & Hl & H). apply in_map_iff in Hl as (k & <- & Hk).
  apply in_map_iff in H as (v & <- & _). exact Hk.
Qed.

Lemma runs_groups ks (b : nat -> list nat) fuel : NoDup ks -> (forall k, In k ks -> b k <> []) ->
  length (concat (map (fun k => pack k (b k)) ks)) <= fuel ->
  runs fuel fst (concat (map (fun k => pack k (b k)) ks)) = Some (map (fun k => length (b k)) ks).
Proof.
  revert fuel; induction ks as [|k ks IH]; intros fuel Hn Hb Hf; [now destruct fuel|].
  inversion Hn as [|? ? Hk Hn']; subst. cbn [map concat] in *.
  destruct (b k) as [|v t] eqn:E; [destruct (Hb k (or_introl eq_refl)); exact E|]. rewrite <- E in *.
  assert (Hne : exists x, pack k (b k) ++ concat (map (fun k => pack k (b k)) ks) = (k, x) :: tl (pack k (b k) ++ concat (map (fun k => pack k (b k)) ks))).
  { rewrite E. exists v. reflexivity. }
  destruct Hne as (x & Hx). destruct fuel as [|fuel]; [rewrite Hx in Hf; cbn in Hf; lia|].
  assert (Hpre : prefix_len (fun y : nat * nat => fst y =? k) (pack k (b k) ++ concat (map (fun k => pack k (b k)) ks)) = length (b k)).
  { apply prefix_pack. intros p Hp. apply in_groups in Hp. intro E1. rewrite E1 in Hp. contradiction. }
  rewrite Hx. cbn [runs fst]. rewrite <- Hx, Hpre, skipn_pack. cbn zeta. rewrite IH; auto.
  - intros; apply Hb; now right.
  - rewrite app_length in Hf. unfold pack at 1 in Hf. rewrite map_length in Hf. rewrite E in Hf. cbn in Hf. lia.
Qed.

Lemma group_offsets_groups n first (b : nat -> list nat) :
  group_offsets n first (concat (map (fun k => pack k (b k)) (seq 0 n)))
  = psums_from first (map (fun k => length (b k)) (seq 0 n)).
Proof.
  unfold group_offsets.
  match goal with |- context [fold_left ?f _ _] => set (step := f) end.
  assert (G : forall m a offs, offs <> [] ->
    fold_left step (seq a m) (offs, concat (map (fun k => pack k (b k)) (seq a m)))
    = (offs ++ tl (psums_from (last offs 0) (map (fun k => length (b k)) (seq a m))), [])).
  { induction m as [|m IH]; intros a offs Ho; cbn [seq map concat fold_left psums_from tl].
    - cbn. now rewrite app_nil_r.
    - assert (E : step (offs, pack a (b a) ++ concat (map (fun k => pack k (b k)) (seq (S a) m))) a
          = (offs ++ [last offs 0 + length (b a)], concat (map (fun k => pack k (b k)) (seq (S a) m)))).
      { unfold step. rewrite prefix_pack.
        - now rewrite skipn_pack.
        - intros p Hp. apply in_groups in Hp. apply in_seq in Hp. lia. }
      rewrite E, IH by (destruct offs; discriminate). rewrite last_last, <- app_assoc. f_equal. f_equal.
      destruct m; reflexivity. }
  rewrite G by discriminate. cbn [fst last].
  assert (T : forall l, [first] ++ tl (psums_from first l) = psums_from first l) by (destruct l; reflexivity).
  apply T.
Qed.

(** ** exchange *)
Lemma exchange_spec {A} P srcs dests send (B : nat -> nat -> list A) r :
  graph_ok P srcs dests -> r < P ->
  (forall s, In s (srcs r) ->
     send s = Some (concat (map (B s) (dests s)),
                    (map (fun d => length (B s d)) (dests s),
                     psums (map (fun d => length (B s d)) (dests s))))) ->
  exchange P srcs dests send r
  = Some (concat (map (fun s => B s r) (srcs r)), map (fun s => length (B s r)) (srcs r)).
Proof.
  intros HG Hr Hs. unfold exchange.
  match goal with |- context [neigh_alltoall P srcs dests ?f r] => 
    assert (E : neigh_alltoall P srcs dests f r = Some (map (fun s => length (B s r)) (srcs r))) end.
  { apply (neigh_alltoall_spec P srcs dests _ (fun s d => length (B s d)) r HG Hr).
    intros s Hin. now rewrite (Hs s Hin). }
  rewrite E. cbn [obind]. 
  match goal with |- context [neigh_alltoallv P srcs dests send ?g r] =>
    rewrite (neigh_alltoallv_spec P srcs dests send g B r HG Hr Hs E) end. reflexivity.
Qed.

(** ** Construction (C10, C12) *)
Lemma exscan_S f r : exscan f (S r) = exscan f r + f r.
Proof. unfold exscan. rewrite seq_S, map_app, lsum_app. cbn [map]. rewrite lsum_cons, lsum_nil. cbn. lia. Qed.

Lemma exscan_mono f a b : a <= b -> exscan f a <= exscan f b.
Proof. induction 1; [lia|]. rewrite exscan_S. lia. Qed.

Section Build.
Variables (P : nat) (nbx : (nat -> list nat) -> nat -> list nat).
Hypothesis Hnbx : nbx_oracle P nbx.
Variables (local_size : nat -> nat) (ghosts owners : nat -> list nat).
Hypothesis Hin : inputs_ok P local_size ghosts owners.

Lemma owners_valid r o : r < P -> In o (owners r) -> o < P /\ o <> r.
Proof.
  intros Hr Ho. destruct (Hin r Hr) as (Hl & _ & H). apply In_nth_error in Ho as (k & Hk).
  destruct (nth_error_lt (ghosts r) k) as (g & Hg); [rewrite <- Hl; eapply nth_error_bound; eauto|].
  destruct (H k g o Hg Hk) as (A & B & _). auto.
Qed.

Definition built (r : nat) : imap :=
  match imap_make P nbx local_size ghosts owners r with Some m => m | None => mkIM 0 0 0 [] [] [] [] end.

Lemma build_src_dest_ok r : r < P -> exists src dest,
  build_src_dest P nbx owners r = Some (src, dest) /\
  (StronglySorted lt src /\ forall s, In s src <-> In s (owners r)) /\
  (StronglySorted lt dest /\ forall s, In s dest <-> s < P /\ In r (owners s)).
Proof.
  intro Hr. unfold build_src_dest. destruct (Nat.eqb_spec P 1) as [HP|HP].
  - assert (E : forall q, q < P -> owners q = []).
    { intros q Hq. destruct (owners q) as [|o t] eqn:Eo; [reflexivity|].
      destruct (owners_valid q o Hq) as (A & B); [rewrite Eo; now left|]. lia. }
    rewrite E by exact Hr. exists [], []. split; [reflexivity|]. split; (split; [constructor|]).
    + intro s. reflexivity.
    + intro s. split; [intros []|]. intros (Hs & H). rewrite E in H by exact Hs. destruct H.
  - exists (sort_uniq (owners r)), (isort Nat.leb (nbx (fun q => sort_uniq (owners q)) r)).
    split; [reflexivity|]. split; [split; [apply sort_uniq_sorted|intro; apply sort_uniq_in]|].
    rewrite (oracle_sorted P) by (auto; intros; apply sort_uniq_NoDup).
    split; [apply SS_filter, SS_lt_seq|]. intro s. rewrite filter_In, in_seq, mem_iff, sort_uniq_in. intuition lia.
Qed.

Lemma built_eq r : r < P -> exists src dest,
  imap_make P nbx local_size ghosts owners r
  = Some (mkIM (exscan local_size r) (exscan local_size r + local_size r) (allreduce_sum P local_size)
               (ghosts r) (owners r) src dest) /\
  (StronglySorted lt src /\ forall s, In s src <-> In s (owners r)) /\
  (StronglySorted lt dest /\ forall s, In s dest <-> s < P /\ In r (owners s)).
Proof.
  intro Hr. destruct (build_src_dest_ok r Hr) as (src & dest & E & H1 & H2). exists src, dest.
  split; [|auto]. unfold imap_make. rewrite E. cbn [obind]. unfold imap_src_dest.
  destruct (Hin r Hr) as (Hl & _). rewrite <- Hl, Nat.eqb_refl. reflexivity.
Qed.

Lemma built_ok : 0 < P -> maps_ok P built /\
  forall r, r < P -> imap_make P nbx local_size ghosts owners r = Some (built r) /\
    im_ghosts (built r) = ghosts r /\ im_owners (built r) = owners r /\
    size_local (built r) = local_size r /\ im_size_global (built r) = lsum (map local_size (seq 0 P)).
Proof.
  intro HP.
  assert (A : forall r, r < P -> exists src dest, built r
     = mkIM (exscan local_size r) (exscan local_size r + local_size r) (allreduce_sum P local_size)
               (ghosts r) (owners r) src dest /\
      imap_make P nbx local_size ghosts owners r = Some (built r) /\
  (StronglySorted lt src /\ forall s, In s src <-> In s (owners r)) /\
  (StronglySorted lt dest /\ forall s, In s dest <-> s < P /\ In r (owners s))).
  { intros r Hr. destruct (built_eq r Hr) as (src & dest & E & H). exists src, dest. unfold built. rewrite E. auto. }
  assert (O : forall r, r < P -> im_owners (built r) = owners r).
  { intros r Hr. destruct (A r Hr) as (? & ? & -> & _). reflexivity. }
  split.
  - constructor.
    + destruct (A 0 HP) as (? & ? & -> & _). reflexivity.
    + intros r Hr. destruct (A r) as (? & ? & -> & _); [lia|]. destruct (A (S r) Hr) as (? & ? & -> & _).
      cbn [im_lo im_hi]. apply exscan_S.
    + intros r Hr. destruct (A r Hr) as (? & ? & -> & _). cbn. lia.
    + intros r Hr. destruct (A r Hr) as (? & ? & -> & _). cbn. apply (Hin r Hr).
    + intros r Hr. destruct (A r Hr) as (? & ? & -> & _). cbn. apply (Hin r Hr).
    + intros r k g o Hr. destruct (A r Hr) as (? & ? & -> & _). cbn. intros Hg Ho.
      destruct (Hin r Hr) as (_ & _ & H). destruct (H k g o Hg Ho) as (H1 & H2 & H3).
      split; [exact H1|]. split; [exact H2|]. destruct (A o H1) as (? & ? & -> & _). unfold owns. cbn.
      change (lsum (map local_size (seq 0 o))) with (exscan local_size o) in H3.
      change (lsum (map local_size (seq 0 (S o)))) with (exscan local_size (S o)) in H3.
      rewrite exscan_S in H3. exact H3.
    + intros r Hr. rewrite O by exact Hr. destruct (A r Hr) as (? & ? & -> & _ & H1 & _). exact H1.
    + intros r Hr. destruct (A r Hr) as (? & ? & -> & _ & _ & (H1 & H2)). cbn. split; [exact H1|].
      intro s. rewrite H2. split; intros (Hs & H); (split; [exact Hs|]); [rewrite O|rewrite O in H]; auto.
  - intros r Hr. destruct (A r Hr) as (? & ? & E & Em & _). rewrite Em, E. unfold size_local. cbn.
    repeat split; auto. lia.
Qed.
End Build.

(** ** Ranges (C10) *)
Section Ranges.
Variables (P : nat) (maps : nat -> imap).
Hypothesis Hok : maps_ok P maps.

Lemma lo_mono a b : a < b -> b < P -> im_hi (maps a) <= im_lo (maps b).
Proof.
  induction 1 as [|b Hab IH]; intro Hb; [rewrite (mo_next _ _ Hok); auto|].
  rewrite (mo_next _ _ Hok) by exact Hb. etransitivity; [apply IH; lia|]. apply (mo_range _ _ Hok). lia.
Qed.

Lemma owner_unique r s i : r < P -> s < P -> owns (maps r) i -> owns (maps s) i -> r = s.
Proof.
  unfold owns. intros Hr Hs Hi Hi'. destruct (Nat.lt_trichotomy r s) as [H|[H|H]]; [|exact H|].
  - pose proof (lo_mono r s H Hs). lia.
  - pose proof (lo_mono s r H Hr). lia.
Qed.

Lemma lo_is_sum r : r < P -> im_lo (maps r) = lsum (map (fun q => size_local (maps q)) (seq 0 r)).
Proof.
  induction r as [|r IH]; intro Hr; [apply (mo_first _ _ Hok)|].
  rewrite seq_S, map_app, lsum_app. cbn [map]. rewrite lsum_cons, lsum_nil, <- IH by lia.
  rewrite (mo_next _ _ Hok) by exact Hr. pose proof (mo_range _ _ Hok r ltac:(lia)). unfold size_local. cbn. lia.
Qed.

Lemma owner_exists i n : n < P -> i < im_hi (maps n) -> exists r, r <= n /\ owns (maps r) i.
Proof.
  induction n as [|n IH]; intros Hn Hi.
  - exists 0. split; [lia|]. unfold owns. rewrite (mo_first _ _ Hok). lia.
  - destruct (Nat.lt_ge_cases i (im_lo (maps (S n)))) as [Hlt|Hge].
    + rewrite (mo_next _ _ Hok) in Hlt by exact Hn. destruct (IH ltac:(lia) Hlt) as (r & Hr & Ho).
      exists r. split; [lia|exact Ho].
    + exists (S n). split; [lia|]. unfold owns. lia.
Qed.

Lemma ghost_not_owned r g : r < P -> In g (im_ghosts (maps r)) -> ~ owns (maps r) g.
Proof.
  intros Hr Hg Ho. apply In_nth_error in Hg as (k & Hk).
  destruct (nth_error_lt (im_owners (maps r)) k) as (o & Hko).
  { rewrite (mo_len _ _ Hok) by exact Hr. eapply nth_error_bound; eauto. }
  destruct (mo_owner _ _ Hok r k g o Hr Hk Hko) as (H1 & H2 & H3). apply H2.
  symmetry. eapply owner_unique; eauto.
Qed.
End Ranges.

(** ** local_to_global and global_to_local (C11) *)
Lemma lower_bound_by_nth {A} (key : A -> nat) l x i a :
  StronglySorted (fun y z => key y <= key z) l -> NoDup (map key l) ->
  nth_error l i = Some a -> key a = x -> lower_bound_by key l x = i.
Proof.
  intros Hs Hn Hi Hx. apply nth_error_split in Hi as (p & q & -> & <-). unfold lower_bound_by.
  rewrite prefix_len_app.
  - rewrite prefix_len_stop; [lia|]. rewrite Hx. apply Nat.ltb_irrefl.
  - intros y Hy. apply Nat.ltb_lt.
    assert (key y <= key a).
    { clear - Hs Hy. induction p as [|z t IH]; [destruct Hy|]. cbn in Hs. inversion Hs as [|? ? Ht Hz]; subst.
      destruct Hy as [->|Hy]; [|now apply IH]. rewrite Forall_forall in Hz. apply Hz.
      apply in_app_iff. right. now left. }
    assert (key y <> key a); [|lia].
    intro E. rewrite map_app in Hn. cbn in Hn. apply NoDup_remove_2 in Hn. apply Hn.
    apply in_app_iff. left. rewrite <- E. now apply in_map.
Qed.

(** The lookup done on (global index, position) pairs. *)
Lemma lookup_pairs (gs : list nat) (a : nat) x : NoDup gs ->
  let t := isort pair_leb (combine gs (seq a (length gs))) in
  match nth_error t (lower_bound_by fst t x) with
  | Some (g, l) => if g =? x then Some l else None
  | None => None
  end = option_map (fun i => a + i) (index_in x gs).
Proof.
  intros Hn t.
  assert (Hkeys : Permutation (map fst t) gs).
  { unfold t. rewrite <- (Permutation_map fst (isort_perm _ pair_leb (combine gs (seq a (length gs))))).
    rewrite map_fst_combine by now rewrite seq_length. apply Permutation_refl. }
  assert (Hs : StronglySorted (fun y z : nat * nat => fst y <= fst z) t).
  { eapply SS_impl_in; [|apply psort_sorted]. cbn. intros p q _ _ H. apply pair_leb_iff in H. lia. }
  assert (Hnt : NoDup (map fst t)) by (eapply Permutation_NoDup; [symmetry; exact Hkeys|exact Hn]).
  destruct (index_in x gs) as [i|] eqn:E.
  - apply index_in_some in E. cbn [option_map].
    assert (Hin : In (x, a + i) t).
    { apply isort_in. eapply nth_error_In with (n := i).
      assert (G : forall (u : list nat) (v : list nat) k p q, nth_error u k = Some p -> nth_error v k = Some q ->
         nth_error (combine u v) k = Some (p, q)).
      { clear. induction u as [|p' u IH]; intros [|q' v] [|k] p q H1 H2; cbn in *; try discriminate; [congruence|eauto]. }
      apply G; [exact E|]. apply nth_error_seq. eapply nth_error_bound; eauto. }
    apply In_nth_error in Hin as (j & Hj).
    rewrite (lower_bound_by_nth fst t x j (x, a + i)) by auto. rewrite Hj, Nat.eqb_refl. reflexivity.
  - cbn [option_map]. destruct (nth_error t (lower_bound_by fst t x)) as [[g l]|] eqn:En; [|reflexivity].
    destruct (Nat.eqb_spec g x) as [->|]; [|reflexivity]. exfalso.
    apply nth_error_In in En. apply (in_map fst) in En. eapply Permutation_in in En; [|exact Hkeys].
    destruct (index_in_in x gs En) as (i & Ei). congruence.
Qed.

Lemma g2l_spec (m : imap) (x : nat) : NoDup (im_ghosts m) ->
  global_to_local m x =
    if (im_lo m <=? x) && (x <? im_hi m) then Z.of_nat (x - im_lo m)
    else match index_in x (im_ghosts m) with
         | Some i => Z.of_nat (size_local m + i)
         | None => (-1)%Z
         end.
Proof.
  intro Hn. unfold global_to_local. destruct ((im_lo m <=? x) && (x <? im_hi m)); [reflexivity|].
  pose proof (lookup_pairs (im_ghosts m) (size_local m) x Hn) as H. cbn zeta in H. fold (num_ghosts m) in H.
  destruct (nth_error _ _) as [[g l]|].
  - destruct (g =? x); destruct (index_in x (im_ghosts m)); cbn in H; try discriminate; [injection H as ->|]; reflexivity.
  - destruct (index_in x (im_ghosts m)); [discriminate|reflexivity].
Qed.

Section L2G.
Variables (m : imap).
Hypothesis Hrange : im_lo m <= im_hi m.
Hypothesis Hnd : NoDup (im_ghosts m).
Hypothesis Hno : forall g, In g (im_ghosts m) -> ~ owns m g.

Lemma l2g_some i : (exists g, local_to_global m i = Some g) <-> i < size_local m + num_ghosts m.
Proof.
  unfold local_to_global, num_ghosts. destruct (Nat.ltb_spec i (size_local m)) as [H|H].
  - split; [lia|eauto].
  - split.
    + intros (g & Hg). apply nth_error_bound in Hg. lia.
    + intro Hi. apply nth_error_lt. lia.
Qed.

Lemma g2l_l2g i g : local_to_global m i = Some g -> global_to_local m g = Z.of_nat i.
Proof.
  unfold local_to_global. rewrite g2l_spec by exact Hnd. destruct (Nat.ltb_spec i (size_local m)) as [H|H].
  - intro E. injection E as <-. unfold size_local in H.
    destruct (Nat.leb_spec (im_lo m) (im_lo m + i)), (Nat.ltb_spec (im_lo m + i) (im_hi m)); cbn; try lia.
  - intro E. pose proof (Hno g (nth_error_In _ _ E)) as Ho. unfold owns in Ho.
    rewrite (index_in_nth g _ _ Hnd E).
    destruct (Nat.leb_spec (im_lo m) g), (Nat.ltb_spec g (im_hi m)); cbn; lia.
Qed.

Lemma l2g_g2l g : (0 <= global_to_local m g)%Z -> local_to_global m (Z.to_nat (global_to_local m g)) = Some g.
Proof.
  rewrite g2l_spec by exact Hnd.
  destruct (Nat.leb_spec (im_lo m) g), (Nat.ltb_spec g (im_hi m)); cbn [andb].
  1: { intros _. rewrite Nat2Z.id. unfold local_to_global, size_local.
       destruct (Nat.ltb_spec (g - im_lo m) (im_hi m - im_lo m)); [f_equal; lia|lia]. }
  all: destruct (index_in g (im_ghosts m)) as [i|] eqn:E; [intros _|lia]; rewrite Nat2Z.id;
       unfold local_to_global; destruct (Nat.ltb_spec (size_local m + i) (size_local m)); [lia|];
       replace (size_local m + i - size_local m) with i by lia; now apply index_in_some.
Qed.

Lemma g2l_absent g : global_to_local m g = (-1)%Z <-> ~ owns m g /\ ~ In g (im_ghosts m).
Proof.
  rewrite g2l_spec by exact Hnd. unfold owns.
  destruct (Nat.leb_spec (im_lo m) g), (Nat.ltb_spec g (im_hi m)); cbn [andb]; [split; intros; lia|..].
  all: destruct (index_in g (im_ghosts m)) as [i|] eqn:E;
       [apply index_in_some in E; apply nth_error_In in E; split; [intro; exfalso; lia|intros (_ & X); contradiction]|].
  all: split; [intros _|reflexivity]; split; [lia|]; intro Hi; destruct (index_in_in _ _ Hi); congruence.
Qed.

Lemma global_indices_nth i : nth_error (global_indices m) i = local_to_global m i.
Proof.
  unfold global_indices, local_to_global. destruct (Nat.ltb_spec i (size_local m)) as [H|H].
  - rewrite nth_error_app1 by now rewrite seq_length. now apply nth_error_seq.
  - rewrite nth_error_app2 by now rewrite seq_length. now rewrite seq_length.
Qed.
Lemma global_indices_NoDup : NoDup (global_indices m).
Proof.
  unfold global_indices. assert (G : forall (a b : list nat), NoDup a -> NoDup b -> (forall x, In x a -> ~ In x b) -> NoDup (a ++ b)).
  { induction a as [|x a IH]; intros b Ha Hb Hd; [exact Hb|]. inversion Ha; subst. cbn. constructor.
    - rewrite in_app_iff. intros [|Hx]; [contradiction|]. apply (Hd x); [now left|exact Hx].
    - apply IH; auto. intros y Hy. apply Hd. now right. }
  apply G; [apply seq_NoDup|exact Hnd|]. intros x Hx Hg. apply in_seq in Hx. apply (Hno x Hg).
  unfold owns, size_local in *. lia.
Qed.
End L2G.
