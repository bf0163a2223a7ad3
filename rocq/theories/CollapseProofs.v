(** Collapsed dofmaps. *)
From Verif Require Import Base BaseProofs Algo AlgoProofs Nbx World IndexMap IndexMapSpec IndexMapProofs ImSharedProofs SubMap SubMapSpec SubMapProofs SparsityProofs CellTypes DofBuilder DofSpec DofReq DofCells DofBasic SubDofs SubDofsSpec SubDofsProofs.
Open Scope nat_scope.

Lemma block_inj n x y k l : k < n -> l < n -> n * x + k = n * y + l -> x = y /\ k = l.
Proof. intros Hk Hl E. apply (Nat.div_mod_unique n x y k l Hk Hl E). Qed.

(** ** Writes into an array *)
Section Writes.
Context {A : Type}.
Definition wr (m : list A) (w : nat * A) : option (list A) := upd m (fst w) (snd w).
Lemma writes_total ws : forall m : list A, (forall w, In w ws -> fst w < length m) -> exists m', ofold wr ws m = Some m' /\ length m' = length m.
Proof.
  induction ws as [|[i v] ws IH]; intros m H; cbn [ofold]; [eauto|]. unfold wr at 1. cbn [fst snd].
  destruct (upd_some m i v (H (i, v) (or_introl eq_refl))) as (m1 & E). rewrite E. cbn [obind]. apply upd_length in E.
  destruct (IH m1) as (m' & -> & E'); [intros w Hw; rewrite E; apply H; now right|]. exists m'. split; [reflexivity|congruence].
Qed.
Lemma writes_same ws : forall (m m' : list A) i, ofold wr ws m = Some m' -> (forall w, In w ws -> fst w <> i) -> nth_error m' i = nth_error m i.
Proof.
  induction ws as [|[k v] ws IH]; intros m m' i E H; cbn [ofold] in E; [congruence|]. unfold wr at 1 in E. cbn [fst snd] in E.
  destruct (upd m k v) as [m1|] eqn:E1; cbn [obind] in E; [|discriminate]. rewrite (IH m1 m' i E) by (intros; apply H; now right).
  apply (upd_nth_neq _ _ _ _ _ E1). intro Hc. now apply (H (k, v) (or_introl eq_refl)).
Qed.
Lemma writes_value ws : forall (m m' : list A) i v, ofold wr ws m = Some m' -> In (i, v) ws -> (forall v', In (i, v') ws -> v' = v) -> nth_error m' i = Some v.
Proof.
  induction ws as [|[k u] ws IH]; intros m m' i v E Hin Hf; cbn [ofold] in E; [destruct Hin|]. unfold wr at 1 in E. cbn [fst snd] in E.
  destruct (upd m k u) as [m1|] eqn:E1; cbn [obind] in E; [|discriminate].
  destruct (in_dec Nat.eq_dec i (map fst ws)) as [Hi|Hi].
  - apply in_map_iff in Hi. destruct Hi as ([i' v'] & Hi' & Hi). cbn in Hi'. subst i'. assert (v' = v) as -> by (apply Hf; now right).
    apply (IH m1 m' i v E Hi). intros w Hw. apply Hf. now right.
  - rewrite (writes_same ws m1 m' i E).
    + destruct Hin as [[= -> ->]|Hin]; [exact (upd_nth_eq _ _ _ _ E1)|]. exfalso. apply Hi, in_map_iff. now exists (i, v).
    + intros [j w] Hw Hc. cbn in Hc. subst j. apply Hi, in_map_iff. now exists (i, w).
Qed.
Lemma writes_nested {B} (g : B -> list (nat * A)) (l : list B) : forall m, ofold (fun m b => ofold wr (g b) m) l m = ofold wr (concat (map g l)) m.
Proof.
  induction l as [|b l IH]; intro m; cbn [ofold map concat]; [reflexivity|]. rewrite ofold_app. destruct (ofold wr (g b) m); cbn [obind]; auto.
Qed.
End Writes.

(** ** The map from new to old dofs *)
Definition cmap_writes (bs : nat) (rows view : list (list nat)) : list (nat * nat) :=
  concat (map (fun rv => concat (map (fun ix => map (fun k => (bs * snd ix + k, nth (bs * fst ix + k) (snd rv) 0)) (seq 0 bs))
    (combine (seq 0 (length (fst rv))) (fst rv)))) (combine rows view)).
Definition blocked_shape (bs : nat) (rows view : list (list nat)) : Prop :=
  length view = length rows /\ forall c row vrow, nth_error rows c = Some row -> nth_error view c = Some vrow -> length vrow = bs * length row.

Lemma cmap_as_writes bs size rows view : blocked_shape bs rows view -> collapsed_map bs size rows view = ofold wr (cmap_writes bs rows view) (repeat 0 size).
Proof.
  intros (Hl & Hs). unfold collapsed_map, cmap_writes. rewrite <- writes_nested. apply ofold_ext. intros m [row vrow] Hin.
  apply in_combine_nth in Hin. destruct Hin as (c & H1 & H2). specialize (Hs c row vrow H1 H2). cbn [fst snd].
  rewrite <- writes_nested. apply ofold_ext. intros m' [i x] Hix. apply in_enum in Hix. apply nth_error_bound in Hix. cbn [fst snd].
  rewrite ofold_map. apply ofold_ext. intros m2 k Hk. apply in_seq in Hk. unfold wr. cbn [fst snd].
  rewrite (nth_error_nth' vrow 0); [reflexivity|]. rewrite Hs. nia.
Qed.
Lemma in_cmap_writes bs rows view j v : blocked_shape bs rows view -> (In (j, v) (cmap_writes bs rows view) <->
  exists c i x k, entry rows c i x /\ k < bs /\ j = bs * x + k /\ entry view c (bs * i + k) v).
Proof.
  intros (Hl & Hs). unfold cmap_writes. split.
  - intro H. apply in_concat in H. destruct H as (w & Hw & H). apply in_map_iff in Hw. destruct Hw as ([row vrow] & <- & Hrv). cbn [fst snd] in H.
    apply in_combine_nth in Hrv. destruct Hrv as (c & H1 & H2). apply in_concat in H. destruct H as (w & Hw & H). apply in_map_iff in Hw.
    destruct Hw as ([i x] & <- & Hix). apply in_enum in Hix. cbn [fst snd] in H. apply in_map_iff in H. destruct H as (k & [= <- <-] & Hk). apply in_seq in Hk.
    exists c, i, x, k. split; [exists row; auto|]. split; [lia|]. split; [reflexivity|]. exists vrow. split; [exact H2|].
    apply nth_error_nth'. rewrite (Hs c row vrow H1 H2). apply nth_error_bound in Hix. nia.
  - intros (c & i & x & k & (row & H1 & Hx) & Hk & -> & (vrow & H2 & Hv)). apply in_concat.
    exists (concat (map (fun ix => map (fun k => (bs * snd ix + k, nth (bs * fst ix + k) vrow 0)) (seq 0 bs)) (combine (seq 0 (length row)) row))).
    split; [apply in_map_iff; exists (row, vrow); split; [reflexivity|eapply combine_nth2; eauto]|]. apply in_concat.
    exists (map (fun k => (bs * x + k, nth (bs * i + k) vrow 0)) (seq 0 bs)). split; [apply in_map_iff; exists (i, x); split; [reflexivity|now apply in_enum]|].
    apply in_map_iff. exists k. split; [|apply in_seq; lia]. f_equal. now apply nth_error_nth.
Qed.

(** When equal new dofs have equal old dofs the map is right. *)
Lemma collapsed_map_ok bs n rows view : blocked_shape bs rows view -> (forall c i x, entry rows c i x -> x < n) ->
  (forall c i c' i' x k v v', entry rows c i x -> entry rows c' i' x -> k < bs -> entry view c (bs * i + k) v -> entry view c' (bs * i' + k) v' -> v = v') ->
  exists cm, collapsed_map bs (n * bs) rows view = Some cm /\ length cm = n * bs /\
    forall c i x k v, entry rows c i x -> k < bs -> entry view c (bs * i + k) v -> nth_error cm (bs * x + k) = Some v.
Proof.
  intros Hs Hr Hf. rewrite (cmap_as_writes bs (n * bs) rows view Hs).
  destruct (writes_total (cmap_writes bs rows view) (repeat 0 (n * bs))) as (cm & E & Hl).
  { intros [j v] H. apply (in_cmap_writes _ _ _ _ _ Hs) in H. destruct H as (c & i & x & k & Hx & Hk & -> & _). cbn [fst]. rewrite repeat_length. specialize (Hr _ _ _ Hx). nia. }
  rewrite repeat_length in Hl. exists cm. split; [exact E|]. split; [exact Hl|]. intros c i x k v Hx Hk Hv.
  apply (writes_value _ _ _ _ _ E).
  - apply (in_cmap_writes _ _ _ _ _ Hs). exists c, i, x, k. auto.
  - intros v' H. apply (in_cmap_writes _ _ _ _ _ Hs) in H. destruct H as (c' & i' & x' & k' & Hx' & Hk' & Ej & Hv').
    destruct (block_inj bs x x' k k' Hk Hk' Ej) as (<- & <-). exact (eq_sym (Hf c i c' i' x k v v' Hx Hx' Hk Hv Hv')).
Qed.

(** ** The view of a space without blocks, or one component of blocks *)
Section View.
Variables (P : nat) (maps : nat -> imap) (ibs : nat) (views : nat -> dmap).
Hypothesis Hm : maps_ok P maps.
Hypothesis Hv : view_ok P maps ibs views.
Notation bl := (view_blocks ibs views).

Lemma in_view r d : In d (dofs_view views r) <-> exists c i, entry (dp_rows (views r)) c i d.
Proof.
  unfold dofs_view. rewrite sort_uniq_in, in_concat. split.
  - intros (row & Hr & Hd). apply In_nth_error in Hr, Hd. destruct Hr as (c & ?), Hd as (i & ?). exists c, i, row. auto.
  - intros (c & i & row & H1 & H2). exists row. split; eapply nth_error_In; eauto.
Qed.
Lemma entry_in r c i d : entry (dp_rows (views r)) c i d -> exists row, In row (dp_rows (views r)) /\ In d row.
Proof. intros (row & H1 & H2). exists row. split; eapply nth_error_In; eauto. Qed.
Lemma in_entry r row d : In row (dp_rows (views r)) -> In d row -> exists c i, entry (dp_rows (views r)) c i d.
Proof. intros Hr Hd. apply In_nth_error in Hr, Hd. destruct Hr as (c & ?), Hd as (i & ?). exists c, i, row. auto. Qed.
Lemma one_dof r d d' : r < P -> In d (dofs_view views r) -> In d' (dofs_view views r) -> d / ibs = d' / ibs -> d = d'.
Proof.
  intros Hr H H' E. apply in_view in H, H'. destruct H as (c & i & H), H' as (c' & i' & H'). apply entry_in in H, H'. destruct H as (row & H1 & H2), H' as (row' & H3 & H4).
  exact (vo_one _ _ _ _ Hv r row d row' d' Hr H1 H2 H3 H4 E).
Qed.
Lemma in_blocks r b : In b (bl r) <-> exists d, In d (dofs_view views r) /\ b = d / ibs.
Proof. unfold view_blocks. rewrite in_map_iff. split; intros (d & ? & ?); exists d; auto. Qed.

Lemma SS_map_div l : (forall d d', In d l -> In d' l -> d / ibs = d' / ibs -> d = d') -> StronglySorted lt l -> StronglySorted lt (map (fun d => d / ibs) l).
Proof using Type.
  clear. induction l as [|a l IH]; intros H HS; cbn [map]; constructor.
  - apply IH; [intros; apply H; try right; auto|now inversion HS].
  - apply Forall_forall. intros b Hb. apply in_map_iff in Hb. destruct Hb as (d & <- & Hd). inversion HS as [|? ? ? F]; subst. rewrite Forall_forall in F. specialize (F d Hd).
    destruct ibs as [|n] eqn:En.
    + exfalso. assert (a = d) by (apply H; [now left|now right|reflexivity]). lia.
    + pose proof (Nat.div_le_mono a d (S n) ltac:(lia) ltac:(lia)). assert (a / S n <> d / S n) by (intro E; assert (a = d) by (apply H; [now left|now right|exact E]); lia). lia.
Qed.

Lemma blocks_ok r : r < P -> StronglySorted lt (bl r) /\ forall i, In i (bl r) -> i < size_local (maps r) + num_ghosts (maps r).
Proof.
  intro Hr. split.
  - apply SS_map_div; [intros; eapply (one_dof r); eauto|apply sort_uniq_sorted].
  - intros b Hb. apply in_blocks in Hb. destruct Hb as (d & Hd & ->). apply in_view in Hd. destruct Hd as (c & i & Hd). apply entry_in in Hd. destruct Hd as (row & ? & ?).
    exact (vo_dofs _ _ _ _ Hv r row d Hr H H0).
Qed.
Lemma owner_marks r q g : r < P -> q < P -> owns (maps r) g -> marks maps bl q g -> marks maps bl r g.
Proof.
  intros Hr Hq Ho (b & Hb & Hg). apply in_blocks in Hb. destruct Hb as (d & Hd & ->). apply in_view in Hd. destruct Hd as (c & i & Hd). apply entry_in in Hd. destruct Hd as (row & H1 & H2).
  destruct (vo_owner _ _ _ _ Hv r q row d g Hr Hq H1 H2 Hg Ho) as (row' & d' & H3 & H4 & H5). exists (d' / ibs). split; [|exact H5].
  apply in_blocks. exists d'. split; [|reflexivity]. apply in_view. eapply in_entry; eauto.
Qed.

(** *** One rank *)
Section Rank.
Variables (r : nat) (m : imap) (s2i : list nat).
Hypothesis Hr : r < P.
Hypothesis Hcreate : create_sub_index_map P maps bl true false r = Some (m, s2i).
Hypothesis Hperm : Permutation s2i (bl r).
Hypothesis Hlen : length s2i = map_size m.
Notation view := (dp_rows (views r)).

Lemma s2i_nodup : NoDup s2i.
Proof. apply (Permutation_NoDup (Permutation_sym Hperm)), SS_lt_NoDup, (proj1 (blocks_ok r Hr)). Qed.
Lemma s2i_entry c i d : entry view c i d -> exists x, nth_error s2i x = Some (d / ibs).
Proof.
  intro H. assert (In (d / ibs) s2i) as Hin.
  { apply (Permutation_in _ (Permutation_sym Hperm)), in_blocks. exists d. split; [apply in_view; eauto|reflexivity]. }
  apply In_nth_error in Hin. exact Hin.
Qed.
Lemma s2i_onto x b : nth_error s2i x = Some b -> exists c i d, entry view c i d /\ b = d / ibs.
Proof.
  intro H. apply nth_error_In, (Permutation_in _ Hperm), in_blocks in H. destruct H as (d & Hd & ->). apply in_view in Hd. destruct Hd as (c & i & Hd). exists c, i, d. auto.
Qed.

Lemma last_max l : StronglySorted lt l -> forall d, In d l -> d <= last l 0.
Proof using Type.
  clear. induction l as [|a l IH]; intros HS d Hd; [destruct Hd|]. inversion HS as [|? ? S' F]; subst. destruct l as [|b l].
  - destruct Hd as [->|[]]. cbn. lia.
  - change (last (a :: b :: l) 0) with (last (b :: l) 0). destruct Hd as [->|Hd].
    + rewrite Forall_forall in F. specialize (F b (or_introl eq_refl)). specialize (IH S' b (or_introl eq_refl)). lia.
    + apply IH; auto.
Qed.

Definition o2n_writes : list (nat * option nat) :=
  concat (map (fun ni => map (fun k => (snd ni * ibs + k, Some (fst ni))) (seq 0 ibs)) (combine (seq 0 (length s2i)) s2i)).
Lemma in_o2n j v : In (j, v) o2n_writes <-> exists n b k, nth_error s2i n = Some b /\ k < ibs /\ j = b * ibs + k /\ v = Some n.
Proof.
  unfold o2n_writes. rewrite in_concat. split.
  - intros (w & Hw & H). apply in_map_iff in Hw. destruct Hw as ([n b] & <- & Hn). apply in_enum in Hn. cbn [fst snd] in H. apply in_map_iff in H. destruct H as (k & [= <- <-] & Hk).
    apply in_seq in Hk. exists n, b, k. repeat split; auto; lia.
  - intros (n & b & k & Hn & Hk & -> & ->). exists (map (fun k => (b * ibs + k, Some n)) (seq 0 ibs)). split.
    + apply in_map_iff. exists (n, b). split; [reflexivity|now apply in_enum].
    + apply in_map_iff. exists k. split; [reflexivity|apply in_seq; lia].
Qed.

Lemma build_collapsed_ok : exists rows, build_collapsed_dofmap P maps ibs views r = Some (m, rows) /\ same_shape rows view /\
  (forall c i x, entry rows c i x -> exists d, entry view c i d /\ nth_error s2i x = Some (d / ibs)) /\
  (forall c i d, entry view c i d -> exists x, entry rows c i x /\ nth_error s2i x = Some (d / ibs)).
Proof.
  pose proof (vo_bs _ _ _ _ Hv) as Hb.
  set (size := match dofs_view views r with [] => 0 | _ => last (dofs_view views r) 0 + ibs end).
  destruct (writes_total o2n_writes (repeat None size)) as (o2n & E & Hl).
  { intros [j v] H. apply in_o2n in H. destruct H as (n & b & k & Hn & Hk & -> & ->). cbn [fst]. rewrite repeat_length.
    destruct (s2i_onto n b Hn) as (c & i & d & Hd & ->). assert (In d (dofs_view views r)) as Hin by (apply in_view; eauto).
    pose proof (last_max (dofs_view views r) (sort_uniq_sorted _) d Hin) as Hle. pose proof (Nat.mul_div_le d ibs ltac:(lia)) as Hdl.
    unfold size. destruct (dofs_view views r) eqn:Ed; [destruct Hin|]. lia. }
  assert (Ho : forall n b k, nth_error s2i n = Some b -> k < ibs -> nth_error o2n (b * ibs + k) = Some (Some n)).
  { intros n b k Hn Hk. apply (writes_value _ _ _ _ _ E).
    - apply in_o2n. exists n, b, k. auto.
    - intros v' H. apply in_o2n in H. destruct H as (n' & b' & k' & Hn' & Hk' & Ej & ->). f_equal. destruct (block_inj ibs b b' k k' Hk Hk' ltac:(lia)) as (<- & <-).
      eapply NoDup_nth_error_inj; [exact s2i_nodup|exact Hn'|exact Hn]. }
  assert (Hd : forall c i d, entry view c i d -> exists x, (x <- nth_error o2n d ;; x) = Some x /\ nth_error s2i x = Some (d / ibs)).
  { intros c i d H. destruct (s2i_entry c i d H) as (x & Hx). exists x. split; [|exact Hx].
    pose proof (Nat.div_mod d ibs ltac:(lia)) as Ed. pose proof (Nat.mod_upper_bound d ibs ltac:(lia)) as Hk. specialize (Ho x (d / ibs) (d mod ibs) Hx Hk).
    replace (d / ibs * ibs + d mod ibs) with d in Ho by lia. rewrite Ho. reflexivity. }
  destruct (omap_all (omap (fun d => x <- nth_error o2n d ;; x)) view) as (rows & Er).
  { intros row Hrow. apply omap_all. intros d Hin. destruct (in_entry r row d Hrow Hin) as (c & i & He). destruct (Hd c i d He) as (x & Hx & _). eauto. }
  exists rows. split; [|split; [|split]].
  - unfold build_collapsed_dofmap. destruct (Nat.ltb_spec 1 (lay_bs (dp_lay (views r)))) as [H|_]; [pose proof (vo_lay _ _ _ _ Hv r Hr); lia|].
    rewrite Hcreate. cbn [obind]. fold size.
    rewrite (ofold_ext _ (fun m ni => ofold wr (map (fun k => (snd ni * ibs + k, Some (fst ni))) (seq 0 ibs)) m)) by (intros; rewrite ofold_map; reflexivity).
    rewrite writes_nested. fold o2n_writes. rewrite E. cbn [obind]. rewrite Er. reflexivity.
  - unfold same_shape. clear - Er. revert rows Er. induction view as [|row v IH]; intros rows Er; cbn [omap] in Er.
    + injection Er as <-. reflexivity.
    + destruct (omap _ row) as [row'|] eqn:E1; cbn [obind] in Er; [|discriminate]. destruct (omap _ v) as [rows'|]; cbn [obind] in Er; [|discriminate]. injection Er as <-.
      cbn [map]. rewrite (IH _ eq_refl). f_equal. now apply omap_length in E1.
  - intros c i x (row' & H1 & H2). pose proof (nth_error_bound _ _ _ H1) as Hlt. rewrite (omap_length _ _ _ Er) in Hlt. apply nth_error_lt in Hlt. destruct Hlt as (row & Hrow).
    destruct (omap_nth _ _ _ Er c row Hrow) as (y & Hy & Hf). rewrite H1 in Hy. injection Hy as <-.
    pose proof (nth_error_bound _ _ _ H2) as Hlt. rewrite (omap_length _ _ _ Hf) in Hlt. apply nth_error_lt in Hlt. destruct Hlt as (d & Hdd).
    destruct (omap_nth _ _ _ Hf i d Hdd) as (y & Hy & Hfx). rewrite H2 in Hy. injection Hy as <-.
    assert (He : entry view c i d) by (exists row; auto). exists d. split; [exact He|]. destruct (Hd c i d He) as (x' & Hx' & Hs). congruence.
  - intros c i d He. destruct (Hd c i d He) as (x & Hx & Hs). exists x. split; [|exact Hs]. destruct He as (row & H1 & H2).
    destruct (omap_nth _ _ _ Er c row H1) as (row' & Hr' & Hf). destruct (omap_nth _ _ _ Hf i d H2) as (y & Hy & Hfx). exists row'. split; [exact Hr'|]. congruence.
Qed.

Lemma collapse_view_ok : exists rows cm, collapse_view P maps ibs views r = Some (m, rows, cm) /\ same_shape rows view /\
  (forall c i x d, entry rows c i x -> entry view c i d -> nth_error cm x = Some d) /\ length cm = map_size m /\
  (forall x d, nth_error cm x = Some d -> nth_error s2i x = Some (d / ibs) /\ exists c i, entry view c i d) /\
  (forall c i d, entry view c i d -> exists x, nth_error cm x = Some d).
Proof.
  destruct build_collapsed_ok as (rows & E & Hsh & H1 & H2).
  assert (Hv1 : forall c i d, entry view c i d -> entry view c (1 * i + 0) d) by (intros c i d H; now replace (1 * i + 0) with i by lia).
  destruct (collapsed_map_ok 1 (map_size m) rows view) as (cm & Ec & Hlc & Hcm).
  - unfold same_shape in Hsh. split; [apply (f_equal (@length nat)) in Hsh; now rewrite !map_length in Hsh|]. intros c row vrow Ha Hb.
    apply (f_equal (fun l => nth_error l c)) in Hsh. rewrite (map_nth_error _ _ _ Ha), (map_nth_error _ _ _ Hb) in Hsh. injection Hsh as ->. lia.
  - intros c i x Hx. destruct (H1 c i x Hx) as (d & _ & Hs). rewrite <- Hlen. eapply nth_error_bound; eauto.
  - intros c i c' i' x k v v' Hx Hx' Hk Hvv Hvv'. replace (1 * i + k) with i in Hvv by lia. replace (1 * i' + k) with i' in Hvv' by lia.
    destruct (H1 c i x Hx) as (d & Hd & Hs). destruct (H1 c' i' x Hx') as (d' & Hd' & Hs').
    assert (d = v) as -> by (destruct Hd as (a & ? & ?), Hvv as (b & ? & ?); congruence). assert (d' = v') as -> by (destruct Hd' as (a & ? & ?), Hvv' as (b & ? & ?); congruence).
    apply (one_dof r); [exact Hr|apply in_view; eauto|apply in_view; eauto|congruence].
  - rewrite Nat.mul_1_r in Ec, Hlc. exists rows, cm.
    assert (G : forall c i x d, entry rows c i x -> entry view c i d -> nth_error cm x = Some d).
    { intros c i x d Hx Hd. replace x with (1 * x + 0) by lia. apply (Hcm c i x 0 d Hx); [lia|auto]. }
    split; [unfold collapse_view; rewrite E; cbn [obind]; now rewrite Ec|]. split; [exact Hsh|]. split; [exact G|]. split; [exact Hlc|]. split.
    + intros x d Hx. pose proof (nth_error_bound _ _ _ Hx) as Hlt. rewrite Hlc, <- Hlen in Hlt. apply nth_error_lt in Hlt. destruct Hlt as (b & Hbx).
      destruct (s2i_onto x b Hbx) as (c & i & d' & Hd' & ->). destruct (H2 c i d' Hd') as (x' & Hx' & Hs).
      assert (x' = x) as -> by (eapply NoDup_nth_error_inj; [exact s2i_nodup|exact Hs|exact Hbx]).
      assert (d' = d) as -> by (pose proof (G c i x d' Hx' Hd'); congruence). eauto.
    + intros c i d Hd. destruct (H2 c i d Hd) as (x & Hx & _). exists x. eauto.
Qed.
End Rank.

Lemma collapse_ok : exists new rows cmap, (forall r, r < P -> collapse_view P maps ibs views r = Some (new r, rows r, cmap r)) /\
  collapsed_ok P maps ibs views new rows cmap.
Proof.
  destruct (sub_map_ok P maps bl true false Hm blocks_ok (or_intror owner_marks)) as (subs & s2p & Hsub & Hc & Hp & Ho & Hg).
  pose (res := fun r => match collapse_view P maps ibs views r with Some x => x | None => (subs r, [], []) end).
  assert (G : forall r, r < P -> exists rows cm, collapse_view P maps ibs views r = Some (subs r, rows, cm) /\ same_shape rows (dp_rows (views r)) /\
    (forall c i x d, entry rows c i x -> entry (dp_rows (views r)) c i d -> nth_error cm x = Some d) /\ length cm = map_size (subs r) /\
    (forall x d, nth_error cm x = Some d -> nth_error (s2p r) x = Some (d / ibs) /\ exists c i, entry (dp_rows (views r)) c i d) /\
    (forall c i d, entry (dp_rows (views r)) c i d -> exists x, nth_error cm x = Some d)).
  { intros r Hr. destruct (Hp r Hr) as (P1 & P2 & _). exact (collapse_view_ok r (subs r) (s2p r) Hr (Hc r Hr) P1 P2). }
  exists subs, (fun r => snd (fst (res r))), (fun r => snd (res r)). split.
  { intros r Hr. unfold res. destruct (G r Hr) as (rows & cm & -> & _). reflexivity. }
  constructor.
  - exact Hsub.
  - intros r Hr. unfold res. destruct (G r Hr) as (rows & cm & -> & H & _). exact H.
  - intros r c i x d Hr. unfold res. destruct (G r Hr) as (rows & cm & -> & _ & H & _). apply H.
  - intros r Hr. unfold res. destruct (G r Hr) as (rows & cm & -> & _ & _ & H & _). exact H.
  - intros r Hr. unfold res. destruct (G r Hr) as (rows & cm & -> & _ & _ & Hl & H & _). cbn [snd]. apply NoDup_nth_error. intros x y Hx E.
    apply nth_error_lt in Hx. destruct Hx as (d & Hd). rewrite Hd in E. symmetry in E. destruct (H x d Hd) as (A & _), (H y d E) as (B & _).
    eapply NoDup_nth_error_inj; [eapply s2i_nodup; [exact Hr|exact (proj1 (Hp r Hr))]|exact A|exact B].
  - intros r d Hr. unfold res. destruct (G r Hr) as (rows & cm & -> & _ & _ & _ & H & H'). cbn [snd]. split.
    + intro Hd. apply In_nth_error in Hd. destruct Hd as (x & Hx). exact (proj2 (H x d Hx)).
    + intros (c & i & He). destruct (H' c i d He) as (x & Hx). eapply nth_error_In; eauto.
  - intros r r' x x' d d' g g' n n' Hr Hr'. unfold res. destruct (G r Hr) as (rows & cm & -> & _ & _ & _ & H & _), (G r' Hr') as (rows' & cm' & -> & _ & _ & _ & H' & _). cbn [snd].
    intros Hx Hx' Hg1 Hg2 Hn Hn'. destruct (H x d Hx) as (A & _), (H' x' d' Hx') as (B & _).
    exact (Hg r r' x x' (d / ibs) (d' / ibs) g g' n n' Hr Hr' A Hg1 Hn B Hg2 Hn').
  - intros r x d Hr. unfold res. destruct (G r Hr) as (rows & cm & -> & _ & _ & _ & H & _). cbn [snd]. intro Hx. destruct (H x d Hx) as (A & c & i & He).
    apply entry_in in He. destruct He as (row & Hrow & Hd). pose proof (vo_dofs _ _ _ _ Hv r row d Hr Hrow Hd) as Hlt.
    assert (exists g, local_to_global (maps r) (d / ibs) = Some g) as (g & Eg).
    { apply (proj1 (l2g_all P maps Hm r Hr)). exact Hlt. }
    destruct (Ho r x (d / ibs) g Hr A Eg) as (o & Hno & _ & Hiff & _). rewrite Hiff.
    assert (Hown : owns (maps r) g <-> d / ibs < size_local (maps r)).
    { split.
      - intros Hw. destruct (Nat.lt_ge_cases (d / ibs) (size_local (maps r))) as [|Hge]; [assumption|exfalso].
        unfold local_to_global in Eg. destruct (Nat.ltb_spec (d / ibs) (size_local (maps r))); [lia|]. apply nth_error_In in Eg.
        exact (ghost_not_owned P maps Hm r g Hr Eg Hw).
      - intro Hl. rewrite (l2g_own _ _ Hl) in Eg. injection Eg as <-. unfold owns, size_local in *. lia. }
    destruct Hno as (Hoo & Hmk & Hcase). assert (Hoown : owns (maps o) g).
    { destruct Hcase as [Hc1|(Hc1 & _)]; [exact Hc1|exfalso].
      assert (exists q, q < P /\ owns (maps q) g) as (q & Hq & Hqo).
      { unfold local_to_global in Eg. destruct (Nat.ltb_spec (d / ibs) (size_local (maps r))) as [Hl|Hge].
        - exists r. split; [exact Hr|]. apply Hown. exact Hl.
        - pose proof (mo_len _ _ Hm r Hr) as Hle. pose proof (nth_error_bound _ _ _ Eg) as Hb. rewrite <- Hle in Hb. apply nth_error_lt in Hb. destruct Hb as (q & Hq).
          destruct (mo_owner _ _ Hm r _ g q Hr Eg Hq) as (B1 & _ & B3). eauto. }
      apply (Hc1 q Hq Hqo). exact (owner_marks q o g Hq Hoo Hqo Hmk). }
    rewrite <- Hown. split; [now intros <-|]. intro Hw. exact (owner_unique P maps Hm o r g Hoo Hr Hoown Hw).
Qed.
End View.
