(** Proofs about Sharing.v. *)
From Verif Require Import Base Algo BaseProofs AlgoProofs BucketProofs World WorldProofs Nbx Ranges RangesProofs IndexMap IndexMapProofs PostOffice PostOfficeProofs RoundTrip MeshCreate MeshCreateProofs Sharing.
Open Scope nat_scope.

(** ** Sorting and grouping *)
Lemma zt_iff a b : ztriple_leb a b = true <-> (fst a < fst b)%Z \/ fst a = fst b /\ pair_leb (snd a) (snd b) = true.
Proof. unfold ztriple_leb. rewrite orb_true_iff, andb_true_iff, Z.ltb_lt, Z.eqb_eq. reflexivity. Qed.
Lemma zt_total a b : ztriple_leb a b = true \/ ztriple_leb b a = true.
Proof. rewrite !zt_iff. destruct (pleb_total (snd a) (snd b)); destruct (Z.lt_trichotomy (fst a) (fst b)) as [|[|]]; auto. Qed.
Lemma zt_trans a b c : ztriple_leb a b = true -> ztriple_leb b c = true -> ztriple_leb a c = true.
Proof.
  rewrite !zt_iff. intros [H|(H & H')] [K|(K & K')]; [left; lia|left; lia|left; lia|]. right. split; [congruence|].
  eapply pleb_trans; eauto.
Qed.
Lemma zt_antisym a b : ztriple_leb a b = true -> ztriple_leb b a = true -> a = b.
Proof.
  rewrite !zt_iff. intros [H|(H & H')] [K|(K & K')]; try lia. destruct a as (x & u), b as (y & w). cbn in *. f_equal; [exact H|].
  now apply pleb_antisym.
Qed.

Definition zgrp {V} (l : list (Z * V)) (v : Z) : list (Z * V) := filter (fun e => fst e =? v)%Z l.
Lemma zgrp_in {V} (l : list (Z * V)) v e : In e (zgrp l v) <-> In e l /\ fst e = v.
Proof. unfold zgrp. rewrite filter_In, Z.eqb_eq. reflexivity. Qed.

Lemma zgrps_perm {V} vs : forall l : list (Z * V), NoDup vs -> (forall e, In e l -> In (fst e) vs) ->
  Permutation l (concat (map (zgrp l) vs)).
Proof.
  induction vs as [|v vs IH]; intros l Hn Hin.
  - destruct l as [|p t]; [constructor|]. destruct (Hin p (or_introl eq_refl)).
  - inversion Hn as [|? ? Hv Hn']; subst. cbn [map concat].
    rewrite (filter_split_perm (fun p => fst p =? v)%Z l) at 1. apply Permutation_app_head.
    rewrite (IH (filter (fun x => negb (fst x =? v)%Z) l) Hn').
    + erewrite map_ext_in; [reflexivity|]. intros w Hw. cbv beta. unfold zgrp. rewrite filter_filter. apply filter_ext.
      intros e. destruct (Z.eqb_spec (fst e) w) as [E|N]; [|now rewrite andb_false_r].
      rewrite andb_true_r. destruct (Z.eqb_spec (fst e) v) as [E'|N']; [|reflexivity]. exfalso. apply Hv. congruence.
    + intros e He. apply filter_In in He as (He & Hb). destruct (Hin e He) as [E|H]; [|exact H].
      rewrite E, Z.eqb_refl in Hb. discriminate.
Qed.

Lemma zgrps_sorted {V} (R : Z * V -> Z * V -> Prop) (l : list (Z * V)) vs : StronglySorted Z.lt vs ->
  StronglySorted (fun a b => fst a = fst b -> R a b) l -> (forall a b, (fst a < fst b)%Z -> R a b) ->
  StronglySorted R (concat (map (zgrp l) vs)).
Proof.
  intros Hs Hl HR. induction Hs as [|v vs Hvs IH Hv]; cbn [map concat]; [constructor|]. apply SS_app.
  - eapply SS_impl_in; [|apply SS_filter, Hl]. intros a b Ha Hb H. apply zgrp_in in Ha, Hb. apply H. destruct Ha, Hb; congruence.
  - exact IH.
  - intros a b Ha Hb. apply zgrp_in in Ha as (_ & Ea). apply in_concat in Hb as (g & Hg & Hb).
    apply in_map_iff in Hg as (w & <- & Hw). apply zgrp_in in Hb as (_ & Eb). apply HR. rewrite Ea, Eb.
    rewrite Forall_forall in Hv. auto.
Qed.

Lemma zruns_grps {V} (b : Z -> list (Z * V)) vs : forall fuel, NoDup vs ->
  (forall v, In v vs -> b v <> []) -> (forall v e, In v vs -> In e (b v) -> fst e = v) ->
  length (concat (map b vs)) <= fuel -> zruns fuel (concat (map b vs)) = Some (map b vs).
Proof.
  induction vs as [|v vs IH]; intros fuel Hn Hb Hk Hf; [now destruct fuel|].
  inversion Hn as [|? ? Hv Hn']; subst. cbn [map concat] in *.
  destruct (b v) as [|e t] eqn:E; [destruct (Hb v (or_introl eq_refl)); exact E|]. 
  assert (Ee : fst e = v) by (apply (Hk v e); [now left|rewrite E; now left]).
  destruct fuel as [|f]; [cbn in Hf; lia|]. cbn [app zruns].
  assert (En : prefix_len (fun y => fst y =? fst e)%Z (e :: t ++ concat (map b vs)) = length (e :: t)).
  { rewrite Ee. change (e :: t ++ concat (map b vs)) with ((e :: t) ++ concat (map b vs)). rewrite prefix_len_app.
    - destruct (concat (map b vs)) as [|x rest] eqn:Ex; [cbn; lia|]. rewrite prefix_len_stop; [lia|]. apply Z.eqb_neq. intro Exv.
      assert (Hx : In x (concat (map b vs))) by (rewrite Ex; now left). apply in_concat in Hx as (g & Hg & Hx).
      apply in_map_iff in Hg as (w & <- & Hw). rewrite (Hk w x (or_intror Hw) Hx) in Exv. subst w. now apply Hv.
    - intros x Hx. apply Z.eqb_eq. apply (Hk v x); [now left|]. now rewrite E. }
  rewrite En. change (e :: t ++ concat (map b vs)) with ((e :: t) ++ concat (map b vs)).
  rewrite skipn_app, skipn_all, Nat.sub_diag, skipn_O, firstn_app, firstn_all, Nat.sub_diag, firstn_O, app_nil_r. cbn [app].
  rewrite IH; [reflexivity|exact Hn'| | |].
  - intros; apply Hb; now right.
  - intros w x Hw. apply Hk; now right.
  - cbn [app length] in Hf. rewrite app_length in Hf. lia.
Qed.

(** ** Counting and writing blocks *)
Lemma add_all_spec n (kvs : list (nat * nat)) : (forall kv, In kv kvs -> fst kv < n) ->
  ofold (fun l kv => modify l (fst kv) (fun c => c + snd kv)) kvs (repeat 0 n) = Some (map (fun k => lsum (vals k kvs)) (seq 0 n)).
Proof.
  intro H.
  assert (G : forall l c, length c = n -> (forall kv, In kv l -> fst kv < n) ->
    ofold (fun l kv => modify l (fst kv) (fun c => c + snd kv)) l c = Some (map (fun k => nth k c 0 + lsum (vals k l)) (seq 0 n))).
  { clear H kvs. induction l as [|(k, x) t IH]; intros c Hc Hl.
    - cbn [ofold]. f_equal. apply nth_error_ext. intro i. rewrite nth_error_map. destruct (Nat.lt_ge_cases i n) as [Hi|Hi].
      + rewrite nth_error_seq by exact Hi. cbn [option_map]. rewrite vals_nil, lsum_nil, Nat.add_0_r. apply nth_error_nth'. lia.
      + rewrite (proj2 (nth_error_None _ _)) by lia. rewrite (proj2 (nth_error_None _ _)) by (rewrite seq_length; lia). reflexivity.
    - cbn [ofold fst snd]. destruct (modify_some c k (fun c => c + x)) as (c' & Ec); [rewrite Hc; apply (Hl (k, x)); now left|].
      rewrite Ec. cbn [obind]. rewrite IH; [|rewrite (modify_length _ _ _ _ Ec); exact Hc|intros; apply Hl; now right].
      f_equal. apply map_ext_in. intros i Hi. apply in_seq in Hi. unfold vals. cbn [filter fst].
      assert (Ei : nth_error c' i = option_map (fun y => if k =? i then y + x else y) (nth_error c i)).
      { rewrite (modify_nth _ _ _ i _ Ec). destruct (nth_error c i); cbn; destruct (k =? i); reflexivity. }
      destruct (nth_error_lt c i) as (y & Ey); [lia|]. rewrite Ey in Ei. cbn in Ei.
      rewrite (nth_error_nth _ _ 0 Ey), (nth_error_nth _ _ 0 Ei). destruct (k =? i); cbn [map snd]; [rewrite lsum_cons|]; lia. }
  rewrite (G kvs (repeat 0 n)); [|apply repeat_length|exact H]. f_equal. apply map_ext_in. intros k Hk. apply in_seq in Hk.
  rewrite nth_repeat. reflexivity.
Qed.

Lemma put_block {A} (bl bl' : list (list A)) i b sizes : sizes = map (@length A) bl -> nth_error sizes i = Some (length b) ->
  upd bl i b = Some bl' ->
  exists bp, nth_error (psums sizes) i = Some bp /\ put (concat bl) bp b = Some (concat bl') /\ map (@length A) bl' = sizes.
Proof.
  intros -> Hi Hu. rewrite nth_error_map in Hi. destruct (nth_error bl i) as [b0|] eqn:E0; [|discriminate]. cbn in Hi. injection Hi as Hl.
  exists (length (concat (firstn i bl))). split; [|split].
  - rewrite psums_nth by (rewrite map_length; apply Nat.lt_le_incl; eapply nth_error_bound; eauto).
    now rewrite firstn_map, lsum_concat_length.
  - apply nth_error_split in E0 as (p & q & -> & <-). rewrite upd_app_mid in Hu. injection Hu as <-.
    rewrite firstn_app, Nat.sub_diag, firstn_all, firstn_O, app_nil_r. rewrite !concat_app. cbn [concat]. unfold put.
    rewrite !app_length. destruct (Nat.leb_spec (length (concat p) + length b) (length (concat p) + (length b0 + length (concat q)))) as [H|H]; [|lia].
    f_equal. rewrite firstn_app, Nat.sub_diag, firstn_all, firstn_O, app_nil_r. f_equal. f_equal.
    rewrite skipn_app, skipn_all2 by lia. cbn [app]. replace (length (concat p) + length b - length (concat p)) with (length b0) by lia.
    rewrite skipn_app, skipn_all, Nat.sub_diag. reflexivity.
  - apply nth_error_ext. intro j. rewrite !nth_error_map. rewrite (upd_nth _ _ _ j _ Hu). destruct (Nat.eqb_spec i j) as [->|N].
    + rewrite E0. cbn. now rewrite Hl.
    + reflexivity.
Qed.

Lemma put_blocks {A} (sizes : list nat) : forall (ps : list (nat * list A)) bl, sizes = map (@length A) bl ->
  (forall i b, In (i, b) ps -> nth_error sizes i = Some (length b)) ->
  ofold (fun buf pb => bp <- nth_error (psums sizes) (fst pb) ;; put buf bp (snd pb)) ps (concat bl)
  = (bl' <- ofold (fun bl pb => upd bl (fst pb) (snd pb)) ps bl ;; Some (concat bl')).
Proof.
  induction ps as [|(i, b) t IH]; intros bl Hs Hp; [reflexivity|]. cbn [ofold fst snd].
  pose proof (Hp i b (or_introl eq_refl)) as Hi. destruct (upd_some bl i b) as (bl' & Eu).
  { rewrite Hs in Hi. rewrite nth_error_map in Hi. destruct (nth_error bl i) eqn:E; [|discriminate]. eapply nth_error_bound; eauto. }
  destruct (put_block bl bl' i b sizes Hs Hi Eu) as (bp & E1 & E2 & E3). rewrite E1. cbn [obind]. rewrite E2, Eu. cbn [obind].
  apply IH; [now symmetry|]. intros; apply Hp; now right.
Qed.

Lemma unpack_ranks_ok rows : forall fuel, length (concat (map (fun l : list nat => length l :: l) rows)) <= fuel ->
  unpack_ranks fuel (concat (map (fun l => length l :: l) rows)) = Some rows.
Proof.
  induction rows as [|l rows IH]; intros fuel Hf; [now destruct fuel|]. cbn [map concat app] in *. destruct fuel as [|f]; [cbn in Hf; lia|].
  cbn [unpack_ranks]. unfold slice. rewrite Nat.sub_0_r. destruct (Nat.leb_spec (length l) (length (l ++ concat (map (fun l => length l :: l) rows)))) as [H|H]; [|rewrite app_length in H; lia].
  cbn [andb Nat.leb]. rewrite skipn_O, firstn_app, Nat.sub_diag, firstn_all, firstn_O, app_nil_r. cbn [obind].
  rewrite skipn_app, Nat.sub_diag, skipn_all, skipn_O. cbn [app]. rewrite IH; [reflexivity|]. cbn [length] in Hf. rewrite app_length in Hf. lia.
Qed.

Lemma swap_first_ok l j o : nth_error l j = Some o -> exists rest, swap_first l j = Some (o :: rest) /\ Permutation (o :: rest) l.
Proof.
  intro Hj. destruct l as [|x t]; [now destruct j|]. unfold swap_first. cbn [nth_error obind]. rewrite Hj. cbn [obind upd].
  destruct j as [|j].
  - cbn in Hj. injection Hj as ->. exists t. split; reflexivity.
  - cbn in Hj. cbn [upd]. apply nth_error_split in Hj as (p & q & -> & <-). rewrite upd_app_mid. cbn [obind]. exists (p ++ x :: q). split; [reflexivity|].
    rewrite <- !Permutation_middle. apply perm_swap.
Qed.

Lemma narrow_id v : (0 <= v < 2 ^ 31)%Z -> narrow v = v.
Proof. intro H. unfold narrow. rewrite Z.mod_small by lia. lia. Qed.

(** Received indices with position and source. *)
Fixpoint tag (a p : nat) (bs : list (list Z)) : list (Z * (nat * nat)) :=
  match bs with
  | [] => []
  | b :: t => combine b (map (fun i => (i, p)) (seq a (length b))) ++ tag (a + length b) (S p) t
  end.
Lemma tag_blocks bs : forall a p,
  concat (map (fun k => combine (nth k bs []) (map (fun i => (i, p + k)) (seq (a + lsum (firstn k (map (@length Z) bs))) (length (nth k bs [])))))
              (seq 0 (length bs))) = tag a p bs.
Proof.
  induction bs as [|b t IH]; intros a p; [reflexivity|]. cbn [length seq map concat nth firstn tag]. rewrite lsum_nil, !Nat.add_0_r. f_equal.
  rewrite <- seq_shift, map_map. rewrite <- (IH (a + length b) (S p)). f_equal. apply map_ext. intro k. cbn [nth firstn]. rewrite lsum_cons.
  f_equal. rewrite Nat.add_succ_r, Nat.add_assoc. reflexivity.
Qed.
Lemma map_fst_tag bs : forall a p, map fst (tag a p bs) = concat bs.
Proof.
  induction bs as [|b t IH]; intros a p; [reflexivity|]. cbn [tag concat]. rewrite map_app, IH. f_equal. apply map_fst_combine. rewrite map_length, seq_length. lia.
Qed.
Lemma map_snd_combine {A C} (a : list A) : forall b : list C, length b <= length a -> map snd (combine a b) = b.
Proof. induction a as [|x a IH]; intros [|y b] H; cbn in *; try reflexivity; [lia|]. f_equal. apply IH. lia. Qed.
Lemma tag_pos bs : forall a p, map (fun e : Z * (nat * nat) => fst (snd e)) (tag a p bs) = seq a (length (concat bs)).
Proof.
  induction bs as [|b t IH]; intros a p; [reflexivity|]. cbn [tag concat]. rewrite map_app, IH, app_length, seq_app. f_equal.
  rewrite <- (map_map snd fst), map_snd_combine by (rewrite map_length, seq_length; lia). rewrite map_map. apply map_id.
Qed.
Lemma tag_in bs : forall a p e, In e (tag a p bs) -> exists k b, nth_error bs k = Some b /\ In (fst e) b /\ snd (snd e) = p + k.
Proof.
  induction bs as [|b t IH]; intros a p (v, (i, q)) H; [destruct H|]. cbn [tag] in H. apply in_app_or in H as [H|H].
  - exists 0, b. split; [reflexivity|]. pose proof (in_combine_l _ _ _ _ H) as H1. apply in_combine_r in H. apply in_map_iff in H as (x & E & _). injection E as _ ->. split; [exact H1|cbn; lia].
  - destruct (IH _ _ _ H) as (k & b' & H1 & H2 & H3). exists (S k), b'. split; [exact H1|]. split; [exact H2|lia].
Qed.
Lemma tag_group v (g : nat -> nat) (f : nat -> list Z) ss : forall a p, (forall s, In s ss -> NoDup (f s)) ->
  (forall k s, nth_error ss k = Some s -> g (p + k) = s) ->
  map (fun e : Z * (nat * nat) => g (snd (snd e))) (zgrp (tag a p (map f ss)) v) = filter (fun s => existsb (Z.eqb v) (f s)) ss.
Proof.
  induction ss as [|s ss IH]; intros a p Hn Hg; [reflexivity|]. cbn [map tag]. unfold zgrp. rewrite filter_app, map_app. fold (zgrp (tag (a + length (f s)) (S p) (map f ss)) v).
  rewrite IH; [|intros; apply Hn; now right|intros k s' Hk; rewrite <- (Hg (S k) s' Hk); f_equal; lia].
  assert (E : map (fun e : Z * (nat * nat) => g (snd (snd e))) (filter (fun e => (fst e =? v)%Z) (combine (f s) (map (fun i => (i, p)) (seq a (length (f s))))))
    = if existsb (Z.eqb v) (f s) then [s] else []).
  { assert (Ep : g p = s) by (rewrite <- (Hg 0 s eq_refl); f_equal; lia). specialize (Hn s (or_introl eq_refl)). clear IH Hg. generalize a.
    induction (f s) as [|x b IHb]; intro a'; [reflexivity|]. inversion Hn as [|? ? Hx Hn']; subst. cbn [length seq map combine filter fst existsb].
    rewrite (Z.eqb_sym v x). destruct (Z.eqb_spec x v) as [->|Nx]; [|apply (IHb Hn')]. cbn [orb map snd]. f_equal.
    rewrite filter_none; [reflexivity|]. intros (y, u) Hy. apply in_combine_l in Hy. cbn. apply Z.eqb_neq. intros ->. now apply Hx. }
  rewrite E. cbn [filter]. destruct (existsb (Z.eqb v) (f s)); reflexivity.
Qed.
Lemma tag_vals (h : Z -> nat) bs : forall a p k,
  vals (p + k) (map (fun e : Z * (nat * nat) => (snd (snd e), h (fst e))) (tag a p bs)) = map h (nth k bs []).
Proof.
  induction bs as [|b t IH]; intros a p k; [now destruct k|]. cbn [tag]. rewrite map_app, vals_app.
  assert (E : forall k', vals k' (map (fun e : Z * (nat * nat) => (snd (snd e), h (fst e))) (combine b (map (fun i => (i, p)) (seq a (length b))))) = if p =? k' then map h b else []).
  { intro k'. clear IH. revert a. induction b as [|x b IHb]; intro a; [cbn; now destruct (p =? k')|]. cbn [length seq map combine snd fst].
    unfold vals in *. cbn [filter fst]. destruct (p =? k') eqn:Ek; cbn [map snd]; rewrite IHb; reflexivity. }
  rewrite E. destruct k as [|k].
  - rewrite Nat.add_0_r, Nat.eqb_refl. cbn [nth]. rewrite <- (app_nil_r (map h b)) at 2. f_equal.
    destruct (vals p _) as [|y l] eqn:Ev; [reflexivity|]. exfalso. assert (Hy : In y (y :: l)) by now left. rewrite <- Ev in Hy. apply (proj1 (vals_in p _ _)) in Hy.
    apply in_map_iff in Hy as (e & Ee & He). apply tag_in in He as (k & b' & _ & _ & Hk). injection Ee as Ee _. lia.
  - destruct (Nat.eqb_spec p (p + S k)) as [Ek|_]; [lia|]. cbn [app nth]. rewrite <- (IH (a + length b) (S p) k). f_equal. lia.
Qed.
Lemma SS_map_inv {A C} (R : C -> C -> Prop) (f : A -> C) l : StronglySorted R (map f l) -> StronglySorted (fun a b => R (f a) (f b)) l.
Proof.
  induction l as [|x t IH]; cbn; intro H; [constructor|]. inversion H as [|? ? H1 H2]; subst. constructor; [now apply IH|].
  rewrite Forall_forall in *. intros y Hy. apply H2. now apply in_map.
Qed.
Lemma zprefix_nth l : forall i x, StronglySorted Z.lt l -> nth_error l i = Some x -> prefix_len (fun y => (y <? x)%Z) l = i.
Proof.
  induction l as [|y l IH]; intros i x Hs Hi; [now destruct i|]. inversion Hs as [|? ? H1 H2]; subst. rewrite Forall_forall in H2. cbn [prefix_len].
  destruct i as [|i]; cbn in Hi.
  - injection Hi as ->. now rewrite Z.ltb_irrefl.
  - pose proof (H2 x (nth_error_In _ _ Hi)) as Hy. destruct (Z.ltb_spec y x) as [_|]; [|lia]. f_equal. now apply IH.
Qed.

Lemma SSZ_eq l : forall l', StronglySorted Z.lt l -> StronglySorted Z.lt l' -> (forall x, In x l <-> In x l') -> l = l'.
Proof.
  induction l as [|x l IH]; intros [|y l'] H1 H2 H.
  - reflexivity.
  - destruct (proj2 (H y) (or_introl eq_refl)).
  - destruct (proj1 (H x) (or_introl eq_refl)).
  - inversion H1 as [|? ? H3 H4]; subst. inversion H2 as [|? ? H5 H6]; subst. rewrite Forall_forall in H4, H6.
    assert (E : x = y).
    { destruct (proj1 (H x) (or_introl eq_refl)) as [E|Hx]; [now symmetry|]. destruct (proj2 (H y) (or_introl eq_refl)) as [E|Hy]; [exact E|].
      specialize (H4 y Hy). specialize (H6 x Hx). lia. }
    subst y. f_equal. apply IH; [exact H3|exact H5|]. intro z. split; intro Hz.
    + destruct (proj1 (H z) (or_intror Hz)) as [E|Hz']; [|exact Hz']. specialize (H4 z Hz). lia.
    + destruct (proj2 (H z) (or_intror Hz)) as [E|Hz']; [|exact Hz']. specialize (H6 z Hz). lia.
Qed.

(** ** The whole function *)
Definition holds (indices : nat -> list Z) (v : Z) (s : nat) : bool := existsb (Z.eqb v) (indices s).
Lemma holds_iff indices v s : holds indices v s = true <-> In v (indices s).
Proof.
  unfold holds. rewrite existsb_exists. split.
  - intros (x & Hx & E). apply Z.eqb_eq in E. now subst.
  - intro H. exists v. split; [exact H|apply Z.eqb_refl].
Qed.
Definition sharers (P : nat) (indices : nat -> list Z) (v : Z) : list nat := filter (holds indices v) (seq 0 P).

Section Proof.
Variables (P : nat) (nbx : (nat -> list nat) -> nat -> list nat) (pick : nat -> nat -> nat -> nat) (indices : nat -> list Z).
Hypothesis HP : 0 < P.
Hypothesis Hnbx : nbx_oracle P nbx.
Hypothesis Hpick : forall r i n, 1 < n -> pick r i n < n.
Hypothesis Hsort : forall r, r < P -> StronglySorted Z.lt (indices r).
Hypothesis Hrange : forall r v, r < P -> In v (indices r) -> (0 <= v < 2 ^ 31)%Z.

Let po (v : Z) : nat := match post_office P indices v with Some d => d | None => 0 end.

Lemma max_index_ge q v : In v (indices q) -> (v <= max_index indices q)%Z.
Proof.
  unfold max_index. destruct (indices q) as [|x t]; [intros []|]. intro H.
  assert (G : (x <= fold_right Z.max x t)%Z /\ forall y, In y t -> (y <= fold_right Z.max x t)%Z).
  { clear. induction t as [|y t (IH1 & IH2)]; cbn; [split; [lia|intros ? []]|]. split; [lia|]. intros z [->|Hz]; [lia|]. specialize (IH2 z Hz). lia. }
  destruct H as [<-|H]; [exact (proj1 G)|exact (proj2 G v H)].
Qed.
Lemma global_range_gt q v : q < P -> In v (indices q) -> (v < global_range P indices)%Z.
Proof.
  intros Hq Hv. unfold global_range.
  assert (G : forall l x, In x l -> (x <= fold_right Z.max (max_index indices 0) l)%Z).
  { induction l as [|y t IH]; intros x; cbn; [intros []|]. intros [->|H]; [lia|]. specialize (IH x H). lia. }
  pose proof (max_index_ge q v Hv). specialize (G (map (max_index indices) (seq 0 P)) (max_index indices q)).
  assert (Hm : In (max_index indices q) (map (max_index indices) (seq 0 P))) by (apply in_map, in_seq; lia). specialize (G Hm). lia.
Qed.

Lemma po_ok q v : q < P -> In v (indices q) ->
  post_office P indices v = Some (po v) /\ po v < P /\
  (fst (local_range (Z.of_nat (po v)) (global_range P indices) (Z.of_nat P)) <= v
   < snd (local_range (Z.of_nat (po v)) (global_range P indices) (Z.of_nat P)))%Z.
Proof.
  intros Hq Hv. pose proof (global_range_gt q v Hq Hv) as Hg. pose proof (Hrange q v Hq Hv) as Hr.
  destruct (index_owner_spec (Z.of_nat P) v (global_range P indices)) as (a & Ea & Ha & Hl); [lia|lia|].
  assert (E : post_office P indices v = Some (Z.to_nat a)).
  { unfold post_office. destruct (Z.leb_spec 0 v) as [_|]; [|lia]. destruct (Z.ltb_spec v (global_range P indices)) as [_|]; [|lia]. cbn [andb]. now rewrite Ea. }
  assert (Ep : po v = Z.to_nat a) by (unfold po; now rewrite E). rewrite Ep, E. split; [reflexivity|]. split; [lia|]. rewrite Z2Nat.id by lia. exact Hl.
Qed.

Lemma range_le N a b : (0 <= N)%Z -> a <= b ->
  (fst (local_range (Z.of_nat a) N (Z.of_nat P)) <= fst (local_range (Z.of_nat b) N (Z.of_nat P)))%Z /\
  (a < b -> (snd (local_range (Z.of_nat a) N (Z.of_nat P)) <= fst (local_range (Z.of_nat b) N (Z.of_nat P)))%Z).
Proof.
  intros HN. induction 1 as [|b Hab (IH1 & IH2)]; [split; lia|].
  pose proof (local_range_consecutive (Z.of_nat b) N (Z.of_nat P) ltac:(lia) HN ltac:(lia)) as Hc.
  pose proof (local_range_length (Z.of_nat b) N (Z.of_nat P) ltac:(lia) HN) as Hlen.
  replace (Z.of_nat (S b)) with (Z.of_nat b + 1)%Z by lia.
  assert (Hb : (fst (local_range (Z.of_nat b) N (Z.of_nat P)) <= snd (local_range (Z.of_nat b) N (Z.of_nat P)))%Z).
  { assert (0 <= N / Z.of_nat P)%Z by (apply Z.div_pos; lia). match type of Hlen with _ = (_ + (if ?c then _ else _))%Z => destruct c | _ => idtac end; lia. }
  split; [lia|]. intro H. destruct (Nat.eq_dec a b) as [->|N']; [lia|]. specialize (IH2 ltac:(lia)). lia.
Qed.

Lemma po_mono q v w : q < P -> In v (indices q) -> In w (indices q) -> (v <= w)%Z -> po v <= po w.
Proof.
  intros Hq Hv Hw Hvw. destruct (po_ok q v Hq Hv) as (_ & _ & H1). destruct (po_ok q w Hq Hw) as (_ & _ & H2).
  destruct (Nat.le_gt_cases (po v) (po w)) as [H|H]; [exact H|]. exfalso.
  assert (HN : (0 <= global_range P indices)%Z) by (pose proof (global_range_gt q v Hq Hv); pose proof (Hrange q v Hq Hv); lia).
  destruct (range_le _ (po w) (po v) HN ltac:(lia)) as (_ & H3). specialize (H3 H). lia.
Qed.

(** Indices of rank [s] that go to the post office [d]. *)
Let B (s d : nat) : list Z := filter (fun v => po v =? d) (indices s).
Let ds (q : nat) : list nat := sort_uniq (map po (indices q)).
Let pairs (q : nat) : list (nat * nat) := map (fun i => (po (nth i (indices q) 0%Z), i)) (seq 0 (length (indices q))).

Lemma B_in s d v : In v (B s d) <-> In v (indices s) /\ po v = d.
Proof. unfold B. rewrite filter_In, Nat.eqb_eq. reflexivity. Qed.
Lemma map_nth_seq (l : list Z) : map (fun i => nth i l 0%Z) (seq 0 (length l)) = l.
Proof. etransitivity; [|apply map_id]. apply map_seq_nth. intros k s H. now apply nth_error_nth. Qed.

Lemma sh_pairs_ok q : q < P -> sh_pairs P indices q = Some (pairs q).
Proof.
  intro Hq. unfold sh_pairs, pairs. apply omap_map. intros i Hi. apply in_seq in Hi.
  assert (Hi' : i < length (indices q)) by (clear - Hi; lia).
  rewrite (nth_error_nth' (indices q) 0%Z Hi'). cbn [obind].
  rewrite (proj1 (po_ok q (nth i (indices q) 0%Z) Hq (nth_In _ _ Hi'))). reflexivity.
Qed.
Lemma pairs_fst q : map fst (pairs q) = map po (indices q).
Proof. unfold pairs. rewrite map_map. cbn. etransitivity; [|apply (f_equal (map po) (map_nth_seq (indices q)))]. now rewrite map_map. Qed.
Lemma pairs_vals q k : map (fun i => nth i (indices q) 0%Z) (vals k (pairs q)) = B q k.
Proof.
  unfold pairs, vals, B. transitivity (filter (fun v => po v =? k) (map (fun i => nth i (indices q) 0%Z) (seq 0 (length (indices q))))); [|now rewrite map_nth_seq].
  generalize (seq 0 (length (indices q))). intro l.
  induction l as [|i l IH]; [reflexivity|]. cbn [map filter fst]. destruct (po (nth i (indices q) 0%Z) =? k); cbn [map snd]; [f_equal|]; exact IH.
Qed.
Lemma pairs_lt q i : In i (map snd (pairs q)) -> i < length (indices q).
Proof. unfold pairs. rewrite map_map. cbn. rewrite map_id. intro H. apply in_seq in H. apply H. Qed.

Lemma sh_runs_ok q : q < P -> sh_runs P indices q = Some (map (fun k => (k, vals k (pairs q))) (ds q)).
Proof.
  intro Hq. unfold sh_runs. rewrite (sh_pairs_ok q Hq). cbn [obind]. destruct (key_runs_spec (pairs q)) as (_ & E). rewrite E.
  unfold ds. now rewrite <- pairs_fst.
Qed.
Lemma sh_dest_ok q : q < P -> sh_dest P indices q = ds q.
Proof. intro Hq. unfold sh_dest. rewrite (sh_runs_ok q Hq), map_map. apply map_id. Qed.
Lemma sh_send_ok q : q < P -> sh_send P indices q =
  Some (concat (map (B q) (ds q)), (map (fun d => length (B q d)) (ds q), psums (map (fun d => length (B q d)) (ds q)))).
Proof.
  intro Hq. unfold sh_send. rewrite (sh_runs_ok q Hq). cbn [obind]. rewrite map_map. cbn [snd].
  rewrite (omap_map _ (fun i => nth i (indices q) 0%Z)).
  - cbn [obind]. rewrite concat_map, !map_map. cbn [snd]. rewrite (map_ext _ (B q)) by (intro; apply pairs_vals).
    assert (E : forall k, length (vals k (pairs q)) = length (B q k)) by (intro k; rewrite <- pairs_vals; now rewrite map_length).
    rewrite (map_ext _ _ E). reflexivity.
  - intros i Hi. apply in_concat in Hi as (l & Hl & Hi). apply in_map_iff in Hl as (k & <- & _).
    assert (Hi' : i < length (indices q)) by (apply pairs_lt; apply in_map_iff; exists (k, i); split; [reflexivity|now apply vals_in]).
    rewrite (nth_error_nth' (indices q) 0%Z Hi'). cbn [obind]. f_equal. apply narrow_id. apply (Hrange q); [exact Hq|]. now apply nth_In.
Qed.

Let src (r : nat) : list nat := sh_src P nbx indices r.
Lemma ds_lt q d : q < P -> In d (ds q) -> d < P.
Proof.
  intros Hq Hd. unfold ds in Hd. apply (proj1 (sort_uniq_in _ _)) in Hd. apply in_map_iff in Hd as (v & <- & Hv). now apply (po_ok q).
Qed.
Lemma sh_dest_NoDup q : q < P -> NoDup (sh_dest P indices q).
Proof. intro Hq. rewrite (sh_dest_ok q Hq). apply sort_uniq_NoDup. Qed.
Lemma src_eq r : r < P -> src r = filter (fun s => mem r (sh_dest P indices s)) (seq 0 P).
Proof. intro Hr. unfold src, sh_src. apply (oracle_sorted P nbx _ r Hnbx Hr). apply sh_dest_NoDup. Qed.
Lemma src_in r s : r < P -> In s (src r) <-> s < P /\ In r (ds s).
Proof.
  intro Hr. rewrite (src_eq r Hr), filter_In, in_seq, mem_iff. split.
  - intros ((_ & Hs) & H). cbn in Hs. rewrite (sh_dest_ok s Hs) in H. auto.
  - intros (Hs & H). rewrite (sh_dest_ok s Hs). auto with arith.
Qed.
Lemma src_sorted r : r < P -> StronglySorted lt (src r).
Proof. intro Hr. rewrite (src_eq r Hr). apply SS_filter, SS_lt_seq. Qed.
Lemma graph0 : graph_ok P src (sh_dest P indices).
Proof.
  intros r Hr. split; [now apply sh_dest_NoDup|]. split; [apply SS_lt_NoDup, src_sorted, Hr|]. split.
  - intro d. rewrite (sh_dest_ok r Hr). split.
    + intro Hd. pose proof (ds_lt r d Hr Hd) as Hp. split; [exact Hp|]. now apply src_in.
    + intros (Hd & H). now apply (src_in d r Hd) in H.
  - intro s. rewrite (src_in r s Hr). split; intros (Hs & H); (split; [exact Hs|]); [rewrite sh_dest_ok|rewrite sh_dest_ok in H]; assumption.
Qed.

Let Bs (r : nat) : list (list Z) := map (fun s => B s r) (src r).
Let L (r : nat) : list (Z * (nat * nat)) := tag 0 0 (Bs r).
Let vs (r : nat) : list Z := nodes1 (concat (Bs r)).

Lemma recv_ok0 r : r < P -> exchange P src (sh_dest P indices) (sh_send P indices) r = Some (concat (Bs r), map (@length Z) (Bs r)).
Proof.
  intro Hr. rewrite (exchange_spec P src (sh_dest P indices) (sh_send P indices) B r graph0 Hr).
  - unfold Bs. now rewrite map_map.
  - intros s Hs. apply (src_in r s Hr) in Hs as (Hs & _). rewrite (sh_dest_ok s Hs). now apply sh_send_ok.
Qed.
Lemma L_keys r e : In e (L r) -> In (fst e) (vs r).
Proof. intro H. apply nodes1_in. rewrite <- (map_fst_tag (Bs r) 0 0). now apply in_map. Qed.
Lemma vs_group r v : In v (vs r) -> zgrp (L r) v <> [].
Proof.
  intro H. unfold vs in H. apply (proj1 (nodes1_in _ _)) in H. rewrite <- (map_fst_tag (Bs r) 0 0) in H. apply in_map_iff in H as (e & E & He). intro E0.
  assert (He' : In e (zgrp (L r) v)) by (apply zgrp_in; auto). rewrite E0 in He'. destruct He'.
Qed.
Lemma sh_groups_ok r : r < P -> sh_groups P nbx indices r = Some (map (zgrp (L r)) (vs r), (map (@length Z) (Bs r), length (concat (Bs r)))).
Proof.
  intro Hr. unfold sh_groups. change (sh_src P nbx indices) with src. rewrite (recv_ok0 r Hr). cbn [obind].
  rewrite (omap_map _ (fun k => combine (nth k (Bs r) []) (map (fun i => (i, k)) (seq (0 + lsum (firstn k (map (@length Z) (Bs r)))) (length (nth k (Bs r) [])))))).
  2:{ intros k Hk. apply in_seq in Hk. rewrite map_length in Hk. destruct (nth_error_lt (Bs r) k) as (b & Eb); [apply Hk|].
      rewrite (slice_at_concat (Bs r) k b Eb). cbn [obind]. rewrite psums_nth by (rewrite map_length; apply Nat.lt_le_incl, Hk). cbn [obind].
      rewrite (nth_error_nth _ _ [] Eb). reflexivity. }
  cbn [obind]. rewrite map_length. pose proof (tag_blocks (Bs r) 0 0) as Et. cbn [Nat.add] in Et. cbn [Nat.add]. rewrite Et. fold (L r).
  assert (Es : isort ztriple_leb (L r) = concat (map (zgrp (L r)) (vs r))).
  { apply isort_unique; [exact zt_total|exact zt_trans|exact zt_antisym| |].
    - apply zgrps_sorted; [apply nodes1_sorted| |].
      + assert (Hp : StronglySorted lt (map (fun e : Z * (nat * nat) => fst (snd e)) (L r))) by (unfold L; rewrite tag_pos; apply SS_lt_seq).
        apply SS_map_inv in Hp. eapply SS_impl_in; [|exact Hp]. cbv beta. intros a b _ _ H E. apply zt_iff. right. split; [exact E|]. apply pair_leb_iff. left. exact H.
      + intros a b H. apply zt_iff. now left.
    - apply zgrps_perm; [apply SSZ_NoDup, nodes1_sorted|]. apply L_keys. }
  rewrite Es. rewrite zruns_grps; [|apply SSZ_NoDup, nodes1_sorted|apply vs_group| |reflexivity].
  - cbn [obind]. rewrite last_psums, lsum_concat_length. reflexivity.
  - intros v e _ H. now apply zgrp_in in H.
Qed.

(** Ranks that have [v], as the post office [r] knows them; owner; answer. *)
Let ranks (r : nat) (v : Z) : list nat := map (fun e : Z * (nat * nat) => nth (snd (snd e)) (src r) 0) (zgrp (L r) v).
Let ownk (r : nat) (v : Z) : nat :=
  match group_owner pick r (prefix_len (fun y => (y <? v)%Z) (vs r)) (zgrp (L r) v) with Some k => k | None => 0 end.
Let own (r : nat) (v : Z) : nat := nth (ownk r v) (src r) 0.
Let rk (r : nat) (v : Z) : list nat := match (j <- index_in (own r v) (ranks r v) ;; swap_first (ranks r v) j) with Some l => l | None => [] end.

Lemma L_src r e : In e (L r) -> exists s, nth_error (src r) (snd (snd e)) = Some s /\ In (fst e) (B s r).
Proof.
  intro H. apply tag_in in H as (k & b & Hk & Hv & E). unfold Bs in Hk. rewrite nth_error_map in Hk. destruct (nth_error (src r) k) as [s|] eqn:Es; [|discriminate].
  cbn in Hk. injection Hk as <-. exists s. rewrite E. auto.
Qed.
Lemma group_owner_ok r v : In v (vs r) -> exists k e, group_owner pick r (prefix_len (fun y => (y <? v)%Z) (vs r)) (zgrp (L r) v) = Some k /\ In e (zgrp (L r) v) /\ snd (snd e) = k /\ ownk r v = k.
Proof.
  intro Hv. unfold ownk, group_owner. set (i := prefix_len _ _). pose proof (vs_group r v Hv) as Hne.
  assert (Hlt : (if 1 <? length (zgrp (L r) v) then pick r i (length (zgrp (L r) v)) else 0) < length (zgrp (L r) v)).
  { destruct (Nat.ltb_spec 1 (length (zgrp (L r) v))) as [H|H]; [now apply Hpick|]. destruct (zgrp (L r) v); [contradiction|cbn; apply Nat.lt_0_succ]. }
  destruct (nth_error_lt _ _ Hlt) as (e & Ee). rewrite Ee. cbn [obind]. exists (snd (snd e)), e. split; [reflexivity|]. split; [eapply nth_error_In; eauto|]. auto.
Qed.
Lemma rk_ok r v : In v (vs r) -> exists j rest, index_in (own r v) (ranks r v) = Some j /\ swap_first (ranks r v) j = Some (rk r v) /\
  rk r v = own r v :: rest /\ Permutation (rk r v) (ranks r v).
Proof.
  intro Hv. destruct (group_owner_ok r v Hv) as (k & e & _ & He & Ek & Eo).
  assert (Hin : In (own r v) (ranks r v)) by (unfold own, ranks; rewrite Eo, <- Ek; apply in_map_iff; exists e; auto).
  destruct (index_in_in _ _ Hin) as (j & Ej). destruct (swap_first_ok (ranks r v) j (own r v)) as (rest & Es & Hp); [now apply index_in_some|].
  exists j, rest. unfold rk. rewrite Ej. cbn [obind]. rewrite Es. auto.
Qed.
Lemma ranks_eq r v : r < P -> ranks r v = filter (fun s => existsb (Z.eqb v) (B s r)) (src r).
Proof.
  intro Hr. unfold ranks, L, Bs. apply (tag_group v (fun k => nth k (src r) 0) (fun s => B s r)).
  - intros s Hs. apply (src_in r s Hr) in Hs as (Hs & _). unfold B. apply NoDup_filter, SSZ_NoDup, Hsort, Hs.
  - intros k s Hk. cbn [Nat.add]. now apply nth_error_nth.
Qed.
Lemma po_in q v : q < P -> In v (indices q) -> In v (vs (po v)) /\ po v < P.
Proof.
  intros Hq Hv. destruct (po_ok q v Hq Hv) as (_ & Hp & _). split; [|exact Hp]. apply nodes1_in. apply in_concat. exists (B q (po v)).
  assert (Hb : In v (B q (po v))) by (apply B_in; auto). split; [|exact Hb]. unfold Bs. apply (in_map (fun s => B s (po v))). apply src_in; [exact Hp|]. split; [exact Hq|].
  unfold ds. apply sort_uniq_in. now apply in_map.
Qed.
Lemma ranks_sharers q v : q < P -> In v (indices q) -> ranks (po v) v = sharers P indices v.
Proof.
  intros Hq Hv. destruct (po_in q v Hq Hv) as (_ & Hp). rewrite (ranks_eq _ _ Hp). apply SS_lt_eq.
  - apply SS_filter, src_sorted, Hp.
  - apply SS_filter, SS_lt_seq.
  - intro s. unfold sharers. rewrite !filter_In, holds_iff. rewrite (src_in _ _ Hp), in_seq.
    assert (E : existsb (Z.eqb v) (B s (po v)) = true <-> In v (indices s)).
    { rewrite existsb_exists. split.
      - intros (x & Hx & Ex). apply Z.eqb_eq in Ex. subst x. now apply B_in in Hx.
      - intro H. exists v. rewrite B_in. split; [auto|apply Z.eqb_refl]. }
    rewrite E. split.
    + intros ((Hs & _) & H). split; [split; [apply Nat.le_0_l|exact Hs]|exact H].
    + intros ((_ & Hs) & H). split; [|exact H]. split; [exact Hs|]. unfold ds. apply sort_uniq_in. now apply in_map.
Qed.

Let reply (r : nat) (v : Z) : list nat := length (rk r v) :: rk r v.
Lemma rk_len r v : In v (vs r) -> length (rk r v) = length (zgrp (L r) v).
Proof. intro Hv. destruct (rk_ok r v Hv) as (j & rest & _ & _ & _ & Hp). rewrite (Permutation_length Hp). unfold ranks. apply map_length. Qed.

Lemma groups_flat r : r < P -> Permutation (concat (map (zgrp (L r)) (vs r))) (L r).
Proof. intro Hr. symmetry. apply zgrps_perm; [apply SSZ_NoDup, nodes1_sorted|]. apply L_keys. Qed.
Lemma entries_eq r : concat (map (fun g : list (Z * (nat * nat)) => map (fun e => (e, length g)) g) (map (zgrp (L r)) (vs r)))
  = map (fun e => (e, length (rk r (fst e)))) (concat (map (zgrp (L r)) (vs r))).
Proof.
  rewrite concat_map, !map_map. f_equal. apply map_ext_in. intros v Hv. apply map_ext_in. intros e He. apply zgrp_in in He as (_ & ->). now rewrite (rk_len r v Hv).
Qed.

Lemma L_pos r e : In e (L r) -> nth_error (concat (Bs r)) (fst (snd e)) = Some (fst e).
Proof.
  intro H. apply In_nth_error in H as (k & Hk).
  assert (E1 : nth_error (map (fun e : Z * (nat * nat) => fst (snd e)) (L r)) k = Some (fst (snd e))) by (rewrite nth_error_map, Hk; reflexivity).
  unfold L in E1. rewrite tag_pos in E1. pose proof (nth_error_bound _ _ _ E1) as Hb. rewrite seq_length in Hb. rewrite nth_error_seq in E1 by exact Hb.
  injection E1 as E1. cbn in E1. rewrite <- E1. rewrite <- (map_fst_tag (Bs r) 0 0). fold (L r). rewrite nth_error_map, Hk. reflexivity.
Qed.
Lemma flat_pos r : r < P -> Permutation (map (fun e : Z * (nat * nat) => fst (snd e)) (concat (map (zgrp (L r)) (vs r)))) (seq 0 (length (concat (Bs r)))).
Proof. intro Hr. rewrite (groups_flat r Hr). unfold L. now rewrite tag_pos. Qed.
Lemma writes_ok0 {A} r (f : Z -> A) (init : list A) : r < P -> length init = length (concat (Bs r)) ->
  ofold (fun l pb => upd l (fst pb) (snd pb)) (map (fun e : Z * (nat * nat) => (fst (snd e), f (fst e))) (concat (map (zgrp (L r)) (vs r)))) init
  = Some (map f (concat (Bs r))).
Proof.
  intros Hr Hl. rewrite (upd_all_full _ (fun i => f (nth i (concat (Bs r)) 0%Z)) (length (concat (Bs r)))).
  - f_equal. apply map_seq_nth. intros k s Hk. now rewrite (nth_error_nth _ _ 0%Z Hk).
  - rewrite map_map. cbn [fst]. eapply Permutation_NoDup; [symmetry; apply flat_pos, Hr|apply seq_NoDup].
  - exact Hl.
  - intros i v H. apply in_map_iff in H as (e & E & He). injection E as <- <-. rewrite (groups_flat r Hr) in He. apply L_pos in He.
    split; [eapply nth_error_bound; eauto|]. now rewrite (nth_error_nth _ _ 0%Z He).
  - intros i Hi. rewrite map_map. cbn [fst]. eapply Permutation_in; [symmetry; apply flat_pos, Hr|]. apply in_seq. split; [apply Nat.le_0_l|exact Hi].
Qed.
Lemma reply_len r v : length (reply r v) = length (rk r v) + 1.
Proof. unfold reply. cbn [length]. now rewrite Nat.add_1_r. Qed.
Lemma per_pos_ok r : r < P -> per_pos (length (concat (Bs r))) (map (zgrp (L r)) (vs r)) = Some (map (@length nat) (map (reply r) (concat (Bs r)))).
Proof.
  intro Hr. unfold per_pos. rewrite entries_eq, ofold_map. cbn [fst snd].
  rewrite map_map. rewrite (map_ext _ _ (reply_len r)). rewrite <- (writes_ok0 r (fun v => length (rk r v) + 1) (repeat 0 (length (concat (Bs r)))) Hr (repeat_length _ _)).
  now rewrite ofold_map.
Qed.

Lemma vals_perm {V} k (l l' : list (nat * V)) : Permutation l l' -> Permutation (vals k l) (vals k l').
Proof.
  unfold vals. intro H. apply Permutation_map. induction H as [|x l l' H IH|x y l|l l' l'' H1 IH1 H2 IH2]; cbn [filter].
  - constructor.
  - destruct (fst x =? k); [now apply perm_skip|exact IH].
  - destruct (fst x =? k), (fst y =? k); try apply perm_swap; reflexivity.
  - now rewrite IH1.
Qed.
Lemma lsum_perm l l' : Permutation l l' -> lsum l = lsum l'.
Proof. induction 1; rewrite ?lsum_cons in *; lia. Qed.

Let C (r s : nat) : list nat := concat (map (reply r) (B s r)).
Lemma per_dest_ok r : r < P -> per_dest (length (src r)) (map (zgrp (L r)) (vs r)) = Some (map (fun s => length (C r s)) (src r)).
Proof.
  intro Hr. unfold per_dest. rewrite entries_eq, ofold_map. cbn [fst snd].
  pose proof (add_all_spec (length (src r)) (map (fun e : Z * (nat * nat) => (snd (snd e), length (rk r (fst e)) + 1)) (concat (map (zgrp (L r)) (vs r))))) as E.
  rewrite ofold_map in E. cbn [fst snd] in E. rewrite E.
  - f_equal. apply map_seq_nth. intros k s Hk.
    rewrite (lsum_perm _ _ (vals_perm k _ _ (Permutation_map _ (groups_flat r Hr)))).
    pose proof (tag_vals (fun v => length (rk r v) + 1) (Bs r) 0 0 k) as Ev. cbn [Nat.add] in Ev. fold (L r) in Ev. rewrite Ev.
    assert (Eb : nth k (Bs r) [] = B s r) by (apply nth_error_nth; unfold Bs; now rewrite nth_error_map, Hk). rewrite Eb. unfold C.
    rewrite <- lsum_concat_length, map_map. now rewrite (map_ext _ _ (reply_len r)).
  - intros kv H. apply in_map_iff in H as (e & <- & He). rewrite (groups_flat r Hr) in He. apply L_src in He as (s & Hs & _). cbn [fst]. eapply nth_error_bound; eauto.
Qed.

Lemma C_all r : concat (map (C r) (src r)) = concat (map (reply r) (concat (Bs r))).
Proof. unfold C, Bs. induction (src r) as [|s t IH]; [reflexivity|]. cbn [map concat]. now rewrite IH, map_app, concat_app. Qed.
Lemma zeros sizes : concat (map (repeat 0) sizes) = repeat 0 (lsum sizes).
Proof. induction sizes as [|x t IH]; [reflexivity|]. cbn [map concat]. now rewrite IH, lsum_cons, repeat_app. Qed.

Lemma sh_answer_ok r : r < P -> sh_answer P nbx pick indices r =
  Some (concat (map (C r) (src r)), (map (fun s => length (C r s)) (src r), psums (map (fun s => length (C r s)) (src r)))).
Proof.
  intro Hr. unfold sh_answer. rewrite (sh_groups_ok r Hr). cbn [obind]. rewrite (per_pos_ok r Hr). cbn [obind].
  assert (En : length (map (@length Z) (Bs r)) = length (src r)) by (unfold Bs; now rewrite !map_length). rewrite En, (per_dest_ok r Hr). cbn [obind].
  rewrite last_psums. set (sizes := map (@length nat) (map (reply r) (concat (Bs r)))).
  assert (Et : lsum (map (fun s => length (C r s)) (src r)) = lsum sizes).
  { unfold sizes. rewrite lsum_concat_length, <- C_all, <- lsum_concat_length, map_map. reflexivity. }
  rewrite Et. change (sh_src P nbx indices r) with (src r).
  match goal with |- obind (ofold ?f ?l ?i) _ = _ => assert (E : ofold f l i = Some (concat (map (C r) (src r)))); [|rewrite E; reflexivity] end.
  rewrite C_all.
  transitivity (ofold (fun buf pb => bp <- nth_error (psums sizes) (fst pb) ;; put buf bp (snd pb))
                      (map (fun e : Z * (nat * nat) => (fst (snd e), reply r (fst e))) (concat (map (zgrp (L r)) (vs r)))) (repeat 0 (lsum sizes))).
  - rewrite ofold_map. cbn [fst snd].
    assert (G : forall ws i buf, (forall k v, nth_error ws k = Some v -> nth_error (vs r) (i + k) = Some v) ->
      ofold (fun buf (ig : nat * list (Z * (nat * nat))) =>
           let g := snd ig in
           k <- group_owner pick r (fst ig) g ;; owner <- nth_error (src r) k ;;
           ofold (fun buf e =>
                    bufferpos <- nth_error (psums sizes) (fst (snd e)) ;;
                    ranks <- omap (fun x : Z * (nat * nat) => nth_error (src r) (snd (snd x))) g ;;
                    j <- index_in owner ranks ;; ranks <- swap_first ranks j ;;
                    put buf bufferpos (length g :: ranks)) g buf)
         (combine (seq i (length (map (zgrp (L r)) ws))) (map (zgrp (L r)) ws)) buf
      = ofold (fun buf e => bp <- nth_error (psums sizes) (fst (snd e)) ;; put buf bp (reply r (fst e))) (concat (map (zgrp (L r)) ws)) buf).
    { induction ws as [|v ws IH]; intros i buf Hw; [reflexivity|]. cbn [map length seq combine ofold concat fst snd]. rewrite ofold_app.
      pose proof (Hw 0 v eq_refl) as Hv. rewrite Nat.add_0_r in Hv. pose proof (nth_error_In _ _ Hv) as Hin.
      destruct (group_owner_ok r v Hin) as (k & e & Eo & He & Ek & Ew). rewrite (zprefix_nth (vs r) _ _ (nodes1_sorted _) Hv) in Eo. cbv zeta. rewrite Eo. cbn [obind].
      apply zgrp_in in He as (He & _). apply L_src in He as (s & Hs & _). rewrite Ek in Hs. rewrite Hs. cbn [obind].
      assert (Es : s = own r v) by (unfold own; rewrite Ew; symmetry; now apply nth_error_nth). rewrite Es.
      match goal with |- obind ?a _ = obind ?b _ => assert (Eab : a = b) end.
      { apply ofold_ext. intros b x Hx. apply zgrp_in in Hx as (_ & Ex). destruct (nth_error (psums sizes) (fst (snd x))) as [bp|]; [|reflexivity]. cbn [obind].
        rewrite (omap_map _ (fun x : Z * (nat * nat) => nth (snd (snd x)) (src r) 0)).
        - cbn [obind]. fold (ranks r v). destruct (rk_ok r v Hin) as (j & rest & Ej & Esw & _). rewrite Ej. cbn [obind]. rewrite Esw. cbn [obind].
          rewrite Ex. unfold reply. now rewrite (rk_len r v Hin).
        - intros y Hy. apply zgrp_in in Hy as (Hy & _). apply L_src in Hy as (s' & Hs' & _). rewrite Hs'. f_equal. symmetry. now apply nth_error_nth. }
      rewrite Eab. match goal with |- obind ?a _ = _ => destruct a as [buf'|]; [|reflexivity] end. cbn [obind]. apply IH. intros m w Hm. rewrite <- (Hw (S m) w Hm). f_equal. lia. }
    apply (G (vs r) 0). auto.
  - rewrite <- zeros. rewrite put_blocks.
    + rewrite (writes_ok0 r (reply r)); [reflexivity|exact Hr|]. unfold sizes. now rewrite !map_length.
    + rewrite map_map. unfold sizes. rewrite !map_map. symmetry. apply map_ext. intro v. apply repeat_length.
    + intros i b H. apply in_map_iff in H as (e & E & He). injection E as <- <-. rewrite (groups_flat r Hr) in He. apply L_pos in He.
      unfold sizes. rewrite !nth_error_map, He. reflexivity.
Qed.

Lemma sharing_eq r : r < P -> determine_sharing_ranks P nbx pick indices r = Some (map (fun v => rk (po v) v) (indices r)).
Proof.
  intro Hr. unfold determine_sharing_ranks. rewrite (sh_answer_ok r Hr). cbn [obind]. change (sh_src P nbx indices) with src.
  rewrite (exchange_spec P (sh_dest P indices) src (sh_answer P nbx pick indices) C r (graph_ok_sym _ _ _ graph0) Hr).
  2:{ intros d Hd. rewrite (sh_dest_ok r Hr) in Hd. apply sh_answer_ok. now apply (ds_lt r). }
  cbn [obind]. rewrite (sh_dest_ok r Hr).
  assert (E : concat (map (fun d => C d r) (ds r)) = concat (map (fun l => length l :: l) (map (fun v => rk (po v) v) (indices r)))).
  { assert (E1 : indices r = concat (map (B r) (ds r))).
    { apply SSZ_eq; [now apply Hsort| |].
      - assert (G : forall l, StronglySorted lt l -> StronglySorted Z.lt (concat (map (B r) l))).
        { induction 1 as [|d l Hl IH Hd]; cbn [map concat]; [constructor|]. apply SS_app; [apply SS_filter, Hsort, Hr|exact IH|].
          intros v w Hv Hw. apply B_in in Hv as (Hv & Ev). apply in_concat in Hw as (b & Hb & Hw). apply in_map_iff in Hb as (d' & <- & Hd').
          apply B_in in Hw as (Hw & Ew). rewrite Forall_forall in Hd. specialize (Hd d' Hd'). destruct (Z.lt_ge_cases v w) as [H|H]; [exact H|].
          pose proof (po_mono r w v Hr Hw Hv H) as Hm. rewrite Ev, Ew in Hm. exfalso. clear - Hm Hd. lia. }
        apply G. apply sort_uniq_sorted.
      - intro v. split.
        + intro Hv. apply in_concat. exists (B r (po v)). split; [|apply B_in; auto]. apply in_map. unfold ds. apply sort_uniq_in. now apply in_map.
        + intro Hv. apply in_concat in Hv as (b & Hb & Hv). apply in_map_iff in Hb as (d & <- & _). now apply B_in in Hv. }
    rewrite E1 at 1. rewrite map_map. clear E1. unfold C. induction (ds r) as [|d t IH]; [reflexivity|]. cbn [map concat]. rewrite IH, map_app, concat_app. f_equal. f_equal.
    apply map_ext_in. intros v Hv. apply B_in in Hv as (_ & Ev). unfold reply. now rewrite Ev. }
  rewrite E. apply unpack_ranks_ok. reflexivity.
Qed.

(** Every index has one owner, the same for all ranks; the sharing ranks are listed with the
    owner first. *)
Lemma sharing_ok : exists owner : Z -> nat, forall r, r < P -> exists rows,
  determine_sharing_ranks P nbx pick indices r = Some rows /\
  Forall2 (fun v l => exists rest, l = owner v :: rest /\ Permutation l (sharers P indices v)) (indices r) rows.
Proof.
  exists (fun v => own (po v) v). intros r Hr. exists (map (fun v => rk (po v) v) (indices r)). split; [now apply sharing_eq|].
  assert (G : forall l, (forall v, In v l -> In v (indices r)) ->
    Forall2 (fun v m => exists rest, m = own (po v) v :: rest /\ Permutation m (sharers P indices v)) l (map (fun v => rk (po v) v) l)).
  { induction l as [|v l IH]; intro Hl; constructor; [|apply IH; intros; apply Hl; now right]. pose proof (Hl v (or_introl eq_refl)) as Hv.
    destruct (po_in r v Hr Hv) as (Hin & _). destruct (rk_ok (po v) v Hin) as (j & rest & _ & _ & E & Hp). exists rest. split; [exact E|]. rewrite Hp. now rewrite (ranks_sharers r v Hr Hv). }
  now apply G.
Qed.
End Proof.
