(** Cells and coordinates of a mesh. *)
From Verif Require Import Base BaseProofs Algo AlgoProofs SortProofs World WorldProofs PostOffice PostOfficeProofs RoundTrip Distribute DistributeSpec DistributeProofs GhostIdx GhostIdxProofs MeshCreate MeshCreateSpec.
Open Scope nat_scope.

(** ** Rows of equal length *)
Lemma nth_error_firstn {A} n (l : list A) i : i < n -> nth_error (firstn n l) i = nth_error l i.
Proof. revert n l. induction i as [|i IH]; intros [|n] [|x l] H; cbn; try reflexivity; try lia. apply IH. lia. Qed.
Lemma nth_error_skipn {A} n (l : list A) i : nth_error (skipn n l) i = nth_error l (n + i).
Proof. revert l. induction n as [|n IH]; intros [|x l]; cbn; auto. now destruct i. Qed.

Lemma concat_len {A} w (rows : list (list A)) : (forall r, In r rows -> length r = w) -> length (concat rows) = length rows * w.
Proof. induction rows as [|r rows IH]; intro H; [reflexivity|]. cbn [concat length]. rewrite app_length, IH by (intros; apply H; now right). rewrite (H r (or_introl eq_refl)). cbn. lia. Qed.
Lemma concat_split {A} w (rows : list (list A)) n r : (forall r, In r rows -> length r = w) -> nth_error rows n = Some r ->
  exists p q, rows = p ++ r :: q /\ length p = n /\ length (concat p) = n * w.
Proof.
  intros H E. apply nth_error_split in E as (p & q & -> & <-). exists p, q. split; [reflexivity|]. split; [reflexivity|]. apply concat_len. intros r' Hr. apply H. apply in_or_app. now left.
Qed.
Lemma slice_row {A} w (rows : list (list A)) n r : (forall r, In r rows -> length r = w) -> nth_error rows n = Some r -> slice (concat rows) (n * w) (n * w + w) = Some r.
Proof.
  intros H E. destruct (concat_split w rows n r H E) as (p & q & Er & Hp & Hc). rewrite Er, concat_app. cbn [concat]. rewrite <- Hc.
  replace (length (concat p) + w) with (length (concat p) + length r) by (f_equal; apply H; eapply nth_error_In; eauto). apply slice_app_mid.
Qed.
Lemma row_nth {A} w (rows : list (list A)) n r j : (forall r, In r rows -> length r = w) -> nth_error rows n = Some r -> j < w -> nth_error (concat rows) (n * w + j) = nth_error r j.
Proof.
  intros H E Hj. destruct (concat_split w rows n r H E) as (p & q & Er & Hp & Hc). rewrite Er, concat_app. cbn [concat]. rewrite nth_error_app2 by lia. rewrite Hc.
  replace (n * w + j - n * w) with j by lia. apply nth_error_app1. rewrite (H r (nth_error_In _ _ E)). exact Hj.
Qed.
Lemma put_row {A} w (rows : list (list A)) n r rows' : (forall r, In r rows -> length r = w) -> length r = w -> upd rows n r = Some rows' -> put (concat rows) (n * w) r = Some (concat rows') /\ (forall r, In r rows' -> length r = w).
Proof.
  intros H Hr E. pose proof E as E0. apply upd_split in E as (p & x & q & -> & Hp & ->).
  assert (Hc : length (concat p) = n * w) by (rewrite <- Hp; apply concat_len; intros; apply H; apply in_or_app; now left).
  assert (Hx : length x = w) by (apply H; apply in_or_app; right; now left). split.
  - unfold put. rewrite !concat_app. cbn [concat]. rewrite !app_length. destruct (Nat.leb_spec (n * w + length r) (length (concat p) + (length x + length (concat q)))) as [L|G]; [|lia].
    f_equal. rewrite <- Hc. rewrite firstn_app, Nat.sub_diag, firstn_all, firstn_O, app_nil_r. f_equal. f_equal.
    rewrite skipn_app, (skipn_all2 (concat p)) by lia. replace (length (concat p) + length r - length (concat p)) with (length x) by lia. cbn [app]. rewrite skipn_app, skipn_all, Nat.sub_diag. reflexivity.
  - intros y Hy. apply in_app_iff in Hy as [Hy|[<-|Hy]]; [apply H; apply in_or_app; now left|exact Hr|apply H; apply in_or_app; right; now right].
Qed.

(** ** Reordering *)
Section Reorder.
Variables (remap : list nat) (n : nat).
Hypothesis Hp : Permutation remap (seq 0 n).
Definition pos (k : nat) : nat := match index_in k remap with Some j => j | None => 0 end.
Lemma remap_len : length remap = n. Proof. now rewrite (Permutation_length Hp), seq_length. Qed.
Lemma remap_NoDup : NoDup remap. Proof. eapply Permutation_NoDup; [symmetry; exact Hp|apply seq_NoDup]. Qed.
Lemma remap_lt j k : nth_error remap j = Some k -> k < n.
Proof. intro H. apply nth_error_In in H. apply (Permutation_in _ Hp) in H. apply in_seq in H. lia. Qed.
Lemma pos_ok k : k < n -> nth_error remap (pos k) = Some k.
Proof.
  intro H. assert (Hk : In k remap) by (apply (Permutation_in _ (Permutation_sym Hp)), in_seq; lia). unfold pos. destruct (index_in_in k remap Hk) as (j & Ej). rewrite Ej. now apply index_in_some.
Qed.
Lemma pos_lt k : k < n -> pos k < n.
Proof. intro H. apply pos_ok in H. apply nth_error_bound in H. now rewrite remap_len in H. Qed.
Lemma pos_remap j k : nth_error remap j = Some k -> pos k = j.
Proof. intro H. pose proof (pos_ok k (remap_lt j k H)) as E. pose proof remap_NoDup as N. rewrite NoDup_nth_error in N. apply N; [eapply nth_error_bound; eauto|congruence]. Qed.
Definition moved {A} (d : A) (l : list A) : list A := map (fun k => nth (pos k) l d) (seq 0 n).
Lemma moved_ok {A} (d : A) l : length l = n -> reordered remap l (moved d l).
Proof.
  intro Hl. split; [unfold moved; rewrite map_length, seq_length; now symmetry|]. intros j k H. pose proof (remap_lt j k H) as B. unfold moved. rewrite nth_error_map_some, nth_error_seq by exact B. cbn [option_map plus].
  rewrite (pos_remap j k H). symmetry. apply nth_error_nth'. pose proof (nth_error_bound _ _ _ H) as B'. rewrite remap_len in B'. lia.
Qed.
Lemma moved_Forall2 {A B} (R : A -> B -> Prop) da db l m : length l = n -> Forall2 R l m -> Forall2 R (moved da l) (moved db m).
Proof.
  intros Hl H. unfold moved. assert (Hs : forall k, In k (seq 0 n) -> k < n) by (intros k Hk; apply in_seq in Hk; lia). revert Hs. generalize (seq 0 n). intro s. induction s as [|k s IH]; intro Hs; cbn [map]; constructor; [|apply IH; intros; apply Hs; now right].
  pose proof (pos_lt k (Hs k (or_introl eq_refl))) as Bk. generalize dependent (pos k). clear - Hl H. intros j Hj. rewrite <- Hl in Hj. clear Hl. revert j Hj. induction H as [|a b l m Hab H IH]; intros j Hj; [cbn in Hj; lia|].
  destruct j as [|j]; [exact Hab|]. cbn [nth]. apply IH. cbn in Hj. lia.
Qed.
Lemma moved_map {A B} (f : A -> B) d l : moved (f d) (map f l) = map f (moved d l).
Proof. unfold moved. rewrite map_map. apply map_ext. intro k. apply map_nth. Qed.
Lemma moved_in {A} (d : A) l x : length l = n -> In x (moved d l) -> In x l.
Proof. intros Hl H. unfold moved in H. apply in_map_iff in H as (k & <- & Hk). apply in_seq in Hk. apply nth_In. rewrite Hl. apply pos_lt. lia. Qed.
Lemma moved_len {A} (d : A) l : length (moved d l) = n. Proof. unfold moved. now rewrite map_length, seq_length. Qed.

(** Writing entry j at [remap[j]] *)
Lemma writes_ok {A} (d : A) (l init : list A) : length l = n -> length init = n ->
  ofold (fun v pg => upd v (fst pg) (snd pg)) (combine remap l) init = Some (moved d l).
Proof.
  intros Hl Hi. pose proof remap_len as Hr. assert (Ef : map fst (combine remap l) = remap) by (apply map_fst_combine; lia). apply upd_all_full.
  - rewrite Ef. apply remap_NoDup.
  - exact Hi.
  - intros k v H. apply combine_nth_in in H as (j & H1 & H2). split; [eapply remap_lt; eauto|]. rewrite (pos_remap j k H1). symmetry. now apply nth_error_nth.
  - intros k Hk. rewrite Ef. apply (Permutation_in _ (Permutation_sym Hp)), in_seq. lia.
Qed.
Lemma combine_seq {A} (d : A) (l : list A) (m : list nat) : length l = length m -> combine m l = map (fun j => (nth j m 0, nth j l d)) (seq 0 (length m)).
Proof.
  revert l. induction m as [|x m IH]; intros [|y l] H; try discriminate; [reflexivity|]. cbn [length seq map combine nth]. f_equal. rewrite <- seq_shift, map_map. cbn [nth]. apply IH. cbn in H. lia.
Qed.
Lemma reorder_list_ok {A} w (rows : list (list A)) : (forall r, In r rows -> length r = w) -> length rows = n ->
  reorder_list (concat rows) remap = Some (concat (moved [] rows)).
Proof.
  intros Hw Hl. unfold reorder_list. rewrite remap_len. destruct (Nat.eqb_spec n 0) as [E|N].
  - assert (rows = []) by (destruct rows; [reflexivity|cbn in Hl; lia]). subst rows. unfold moved. rewrite E. reflexivity.
  - rewrite (concat_len w rows Hw), Hl. rewrite Nat.mul_comm, Nat.mod_mul by exact N. cbn [Nat.eqb negb]. rewrite Nat.div_mul by exact N.
    assert (S : forall js st, (forall j, In j js -> j < n) -> (forall r, In r st -> length r = w) -> length st = n ->
      ofold (fun l j => links_old <- slice (concat rows) (j * w) (j * w + w) ;; m <- nth_error remap j ;; put l (m * w) links_old) js (concat st)
      = obind (ofold (fun v pg => upd v (fst pg) (snd pg)) (map (fun j => (nth j remap 0, nth j rows [])) js) st) (fun y => Some (concat y))).
    { induction js as [|j js IH]; intros st Hj Hst Hls; [reflexivity|]. cbn [ofold map]. pose proof (Hj j (or_introl eq_refl)) as Bj.
      assert (Er : nth_error rows j = Some (nth j rows [])) by (apply nth_error_nth'; lia). assert (Em : nth_error remap j = Some (nth j remap 0)) by (apply nth_error_nth'; rewrite remap_len; lia).
      rewrite (slice_row w rows j _ Hw Er). cbn [obind]. rewrite Em. cbn [obind fst snd]. destruct (upd_some st (nth j remap 0) (nth j rows [])) as (st' & Eu); [rewrite Hls; eapply remap_lt; eauto|].
      destruct (put_row w st _ _ st' Hst (Hw _ (nth_error_In _ _ Er)) Eu) as (E1 & E2). rewrite E1, Eu. cbn [obind]. apply IH; [intros; apply Hj; now right|exact E2|]. now rewrite (upd_length _ _ _ _ Eu). }
    rewrite S; [|intros j Hj; apply in_seq in Hj; lia|exact Hw|exact Hl].
    assert (Ec : map (fun j => (nth j remap 0, nth j rows [])) (seq 0 n) = combine remap rows) by (rewrite (combine_seq [] rows remap) by (rewrite remap_len; exact Hl); now rewrite remap_len).
    rewrite Ec, (writes_ok [] rows rows Hl Hl). reflexivity.
Qed.
Lemma reorder_cells_ok w rows gh : (forall r, In r rows -> length r = w) -> length rows = n ->
  reorder_cells w (concat rows ++ gh) remap = Some (concat (moved [] rows) ++ gh).
Proof.
  intros Hw Hl. unfold reorder_cells. rewrite remap_len. pose proof (concat_len w rows Hw) as Hc. rewrite Hl in Hc. rewrite <- Hc.
  assert (Es : slice (concat rows ++ gh) 0 (length (concat rows)) = Some (concat rows)) by (apply slice_some; rewrite app_length; split; [lia|]; split; [lia|]; cbn [skipn]; rewrite Nat.sub_0_r, firstn_app, Nat.sub_diag, firstn_all, firstn_O, app_nil_r; reflexivity).
  rewrite Es. cbn [obind]. rewrite (reorder_list_ok w rows Hw Hl). cbn [obind]. rewrite skipn_app, skipn_all, Nat.sub_diag. reflexivity.
Qed.
Lemma reorder_original_ok l gh : length l = n -> reorder_original (length gh) (l ++ gh) remap = Some (moved 0%Z l ++ gh).
Proof.
  intro Hl. unfold reorder_original. rewrite app_length, Hl. destruct (Nat.leb_spec (length gh) (n + length gh)); [|lia]. replace (n + length gh - length gh) with n by lia.
  assert (Es : skipn n (l ++ gh) = gh) by (rewrite <- Hl, skipn_app, skipn_all, Nat.sub_diag; reflexivity). rewrite Es, remap_len.
  assert (S : forall js st, (forall j, In j js -> j < n) -> length st = n ->
    ofold (fun v j => m <- nth_error remap j ;; o <- nth_error (l ++ gh) j ;; upd v m o) js (st ++ gh)
    = obind (ofold (fun v pg => upd v (fst pg) (snd pg)) (map (fun j => (nth j remap 0, nth j l 0%Z)) js) st) (fun y => Some (y ++ gh))).
  { induction js as [|j js IH]; intros st Hj Hst; [reflexivity|]. cbn [ofold map]. pose proof (Hj j (or_introl eq_refl)) as Bj.
    assert (Em : nth_error remap j = Some (nth j remap 0)) by (apply nth_error_nth'; rewrite remap_len; lia). rewrite Em. cbn [obind].
    rewrite nth_error_app1 by lia. rewrite (nth_error_nth' l 0%Z) by lia. cbn [obind fst snd]. destruct (upd_some st (nth j remap 0) (nth j l 0%Z)) as (st' & Eu); [rewrite Hst; eapply remap_lt; eauto|].
    rewrite (upd_app_l _ gh _ _ _ Eu), Eu. cbn [obind]. apply IH; [intros; apply Hj; now right|]. now rewrite (upd_length _ _ _ _ Eu). }
  rewrite S; [|intros j Hj; apply in_seq in Hj; lia|apply repeat_length].
  assert (Ec : map (fun j => (nth j remap 0, nth j l 0%Z)) (seq 0 n) = combine remap l) by (rewrite (combine_seq 0%Z l remap) by (rewrite remap_len; exact Hl); now rewrite remap_len).
  rewrite Ec, (writes_ok 0%Z l _ Hl (repeat_length _ _)). reflexivity.
Qed.
End Reorder.

(** ** Sorted nodes *)
Lemma zeqb_iff' a b : (a =? b)%Z = true <-> a = b. Proof. apply Z.eqb_eq. Qed.
Lemma nodes1_in l x : In x (nodes1 l) <-> In x l.
Proof. unfold nodes1. rewrite unique_in by exact zeqb_iff'. apply isort_in. Qed.
Lemma zle_total a b : (a <=? b)%Z = true \/ (b <=? a)%Z = true. Proof. rewrite !Z.leb_le. lia. Qed.
Lemma zle_trans a b c : (a <=? b)%Z = true -> (b <=? c)%Z = true -> (a <=? c)%Z = true. Proof. rewrite !Z.leb_le. lia. Qed.
Lemma nodes1_sorted l : StronglySorted Z.lt (nodes1 l).
Proof.
  unfold nodes1. pose proof (isort_sorted _ Z.leb zle_total zle_trans l) as H. destruct (isort Z.leb l) as [|x t]; [constructor|]. cbn [unique].
  destruct (unique_from_strict Z.eqb (fun a b => (a <=? b)%Z = true) zeqb_iff' t x H) as [G|G].
  - eapply SS_impl_in; [|exact G]. cbn. intros a b _ _ (H1 & H2). apply Z.leb_le in H1. lia.
  - exfalso. apply G. intros a b. rewrite !Z.leb_le. lia.
Qed.
Lemma SSZ_NoDup l : StronglySorted Z.lt l -> NoDup l.
Proof. induction 1 as [|x t Ht IH Hx]; constructor; [|exact IH]. intro H. rewrite Forall_forall in Hx. specialize (Hx x H). lia. Qed.
Lemma SSZ_is_sorted l : StronglySorted Z.lt l -> is_sorted l = true.
Proof.
  induction 1 as [|x t Ht IH Hx]; [reflexivity|]. cbn [is_sorted]. destruct t as [|y t]; [reflexivity|]. rewrite IH, andb_true_r. apply Z.leb_le. rewrite Forall_forall in Hx. specialize (Hx y (or_introl eq_refl)). lia.
Qed.

(** ** Geometry *)
Section Geom.
Context {T : Type} (zero : T).
Lemma put_next (a b : list T) m k : length b <= k -> put (a ++ repeat zero (k + m)) (length a) b = Some ((a ++ b ++ repeat zero (k - length b)) ++ repeat zero m).
Proof.
  intro H. unfold put. rewrite app_length, repeat_length. destruct (Nat.leb_spec (length a + length b) (length a + (k + m))); [|lia]. f_equal.
  rewrite firstn_app, Nat.sub_diag, firstn_all, firstn_O, app_nil_r, <- !app_assoc. do 2 f_equal. rewrite skipn_app, skipn_all2 by lia. replace (length a + length b - length a) with (length b) by lia. cbn [app].
  replace (k + m) with (length b + (k - length b + m)) by lia. rewrite !repeat_app. rewrite skipn_app, repeat_length, Nat.sub_diag, skipn_all2 by (rewrite repeat_length; lia). reflexivity.
Qed.
Lemma copies_ok (f : nat -> option (list T)) (g : nat -> list T) dim n : dim <= 3 -> (forall i, i < n -> f i = Some (g i) /\ length (g i) = dim) ->
  ofold (fun xg i => row <- f i ;; put xg (3 * i) row) (seq 0 n) (repeat zero (3 * n)) = Some (concat (map (fun i => g i ++ repeat zero (3 - dim)) (seq 0 n))).
Proof.
  intros Hd Hf. assert (S : forall k, k <= n -> ofold (fun xg i => row <- f i ;; put xg (3 * i) row) (seq 0 k) (repeat zero (3 * n)) = Some (concat (map (fun i => g i ++ repeat zero (3 - dim)) (seq 0 k)) ++ repeat zero (3 * (n - k)))).
  { induction k as [|k IH]; intro Hk; [cbn [seq ofold map concat app]; now rewrite Nat.sub_0_r|]. rewrite seq_S, ofold_app, IH by lia. cbn [obind plus ofold]. destruct (Hf k) as (-> & El); [lia|]. cbn [obind].
    rewrite map_app, concat_app. cbn [map concat]. rewrite app_nil_r. set (a := concat _).
    assert (La : length a = 3 * k) by (unfold a; rewrite (concat_len 3), map_length, seq_length; [lia|]; intros r Hr; apply in_map_iff in Hr as (i & <- & Hi); apply in_seq in Hi; rewrite app_length, repeat_length; destruct (Hf i); [lia|]; lia).
    rewrite <- La. replace (3 * (n - k)) with (3 + 3 * (n - S k)) by lia. rewrite put_next by lia. cbn [obind]. now rewrite El. }
  rewrite (S n) by lia. rewrite Nat.sub_diag. cbn [Nat.mul repeat]. now rewrite app_nil_r.
Qed.

Lemma create_geometry_ok dofmaps nodes2 (X : Z -> list T) dim : 0 < dim <= 3 -> (forall g, In g nodes2 -> g <> (-1)%Z /\ length (X g) = dim) -> numbers_nodes (concat dofmaps) nodes2 ->
  exists xg igi, create_geometry zero dofmaps (nodes1 nodes2) nodes2 (concat (map X (nodes1 nodes2))) dim = Some (xg, igi) /\
    length xg = 3 * length igi /\ length igi = length (nodes1 nodes2) /\
    forall a k g, nth_error (concat dofmaps) a = Some k -> nth_error nodes2 a = Some g ->
      nth_error igi k = Some g /\ slice xg (3 * k) (3 * k + 3) = Some (X g ++ repeat zero (3 - dim)).
Proof.
  intros Hd HX (N1 & N2 & N3). unfold create_geometry. pose proof (nodes1_sorted nodes2) as HS. rewrite (SSZ_is_sorted _ HS). cbn [negb].
  remember (concat dofmaps) as dd eqn:Edd. clear Edd.
  destruct (local_to_global_ok nodes2 dd) as (l2g & -> & G1 & _ & G3).
  { now symmetry. }
  { intros i g H. apply HX. eapply nth_error_In; eauto. }
  { intros i j k g g' H1 H2 H3 H4. now apply (N2 i j k k g g' H1 H2 H3 H4). }
  cbn [obind].
  assert (Hm : forall l, l <> [] -> In (fold_right Nat.max 0 l) l).
  { intro l. induction l as [|y l IH]; [congruence|]. intros _. cbn [fold_right]. destruct l as [|z l]; [left; cbn; lia|]. destruct (Nat.max_spec y (fold_right Nat.max 0 (z :: l))) as [(_ & ->)|(_ & ->)]; [right; apply IH; discriminate|now left]. }
  assert (Hdof : forall k, k < length l2g -> In k dd).
  { intros k Hk. rewrite G3 in Hk. destruct dd as [|k0 ds]; [lia|]. pose proof (Hm (k0 :: ds)) as Hx. destruct (Nat.eq_dec k (fold_right Nat.max 0 (k0 :: ds))) as [->|]; [apply Hx; discriminate|].
    apply (N3 k (fold_right Nat.max 0 (k0 :: ds))); [apply Hx; discriminate|lia]. }
  assert (Hat : forall k, k < length l2g -> exists a g, nth_error dd a = Some k /\ nth_error nodes2 a = Some g /\ nth_error l2g k = Some g).
  { intros k Hk. apply Hdof in Hk. apply In_nth_error in Hk as (a & Ha). pose proof (nth_error_bound _ _ _ Ha) as B. rewrite N1 in B. destruct (nth_error_lt nodes2 a B) as (g & Eg). exists a, g. split; [exact Ha|]. split; [exact Eg|]. eapply G1; eauto. }
  assert (Hnd : NoDup l2g).
  { apply NoDup_nth_error. intros i j Hi E. destruct (nth_error_lt l2g i Hi) as (g & Eg). rewrite Eg in E. symmetry in E. destruct (Hat i Hi) as (a & ga & A1 & A2 & A3). destruct (Hat j (nth_error_bound _ _ _ E)) as (b & gb & B1 & B2 & B3).
    apply (N2 a b i j ga gb A1 B1 A2 B2). congruence. }
  assert (Hin : forall g, In g l2g <-> In g (nodes1 nodes2)).
  { intro g. rewrite nodes1_in. split; intro H; apply In_nth_error in H as (k & Hk).
    - destruct (Hat k (nth_error_bound _ _ _ Hk)) as (a & g' & _ & A2 & A3). rewrite Hk in A3. injection A3 as <-. eapply nth_error_In; eauto.
    - pose proof (nth_error_bound _ _ _ Hk) as B. rewrite <- N1 in B. destruct (nth_error_lt dd k B) as (d & Ed). eapply nth_error_In. eapply G1; eauto. }
  assert (Hlen : length l2g = length (nodes1 nodes2)) by (apply Permutation_length, NoDup_Permutation; [exact Hnd|now apply SSZ_NoDup|exact Hin]).
  destruct (local_to_local_ok l2g (nodes1 nodes2) Hlen (SSZ_NoDup _ HS)) as (l2l & -> & Ll & L2); [intros x Hx; now apply Hin|]. cbn [obind].
  set (nodes := nodes1 nodes2) in *.
  assert (L3 : forall k, k < length l2g -> exists p g, nth_error l2l k = Some p /\ nth_error nodes p = Some g /\ nth_error l2g k = Some g).
  { intros k Hk. destruct (nth_error_lt l2g k Hk) as (g & Eg). destruct (L2 k g Eg) as (p & E1 & E2). exists p, g. auto. }
  assert (Ei : omap (nth_error nodes) l2l = Some l2g).
  { rewrite (omap_map _ (fun p => nth p nodes 0%Z)).
    - f_equal. apply nth_error_ext. intro k. rewrite nth_error_map_some. destruct (le_lt_dec (length l2g) k) as [L|L].
      + rewrite !(proj2 (nth_error_None _ _)) by lia. reflexivity.
      + destruct (L3 k L) as (p & g & E1 & E2 & ->). rewrite E1. cbn [option_map]. f_equal. now apply nth_error_nth.
    - intros p Hp. apply In_nth_error in Hp as (k & Hk). pose proof (nth_error_bound _ _ _ Hk) as B. rewrite Ll in B. destruct (L3 k B) as (p' & g & E1 & E2 & _). rewrite Hk in E1. injection E1 as <-. rewrite E2. f_equal. symmetry. now apply nth_error_nth. }
  rewrite Ei. cbn [obind].
  assert (HXn : forall r, In r (map X nodes) -> length r = dim) by (intros r Hr; apply in_map_iff in Hr as (g & <- & Hg); apply HX; now apply nodes1_in).
  rewrite (concat_len dim (map X nodes) HXn), map_length, Nat.mod_mul by lia. cbn [Nat.eqb negb]. rewrite Nat.div_mul by lia.
  set (row := fun k => X (nth k l2g 0%Z)).
  assert (Hr : forall k, k < length nodes -> (p <- nth_error l2l k ;; slice (concat (map X nodes)) (dim * p) (dim * p + dim)) = Some (row k) /\ length (row k) = dim).
  { intros k Hk. rewrite <- Hlen in Hk. destruct (L3 k Hk) as (p & g & -> & E2 & E3). cbn [obind]. unfold row. rewrite (nth_error_nth _ _ 0%Z E3). rewrite (Nat.mul_comm dim p). split.
    - apply slice_row; [exact HXn|]. now rewrite nth_error_map_some, E2.
    - apply HX, nodes1_in. eapply nth_error_In; eauto. }
  assert (Eo : ofold (fun xg i => p <- nth_error l2l i ;; row <- slice (concat (map X nodes)) (dim * p) (dim * p + dim) ;; put xg (3 * i) row) (seq 0 (length nodes)) (repeat zero (3 * length nodes))
    = Some (concat (map (fun i => row i ++ repeat zero (3 - dim)) (seq 0 (length nodes))))).
  { rewrite <- (copies_ok (fun k => p <- nth_error l2l k ;; slice (concat (map X nodes)) (dim * p) (dim * p + dim)) row dim (length nodes)); [|lia|exact Hr]. apply ofold_ext. intros xg i. destruct (nth_error l2l i); reflexivity. }
  rewrite Eo. cbn [obind]. eexists. exists l2g. split; [reflexivity|].
  assert (H3 : forall r, In r (map (fun i => row i ++ repeat zero (3 - dim)) (seq 0 (length nodes))) -> length r = 3).
  { intros r Hr'. apply in_map_iff in Hr' as (i & <- & Hi). apply in_seq in Hi. rewrite app_length, repeat_length. destruct (Hr i); [lia|]. lia. }
  split; [rewrite (concat_len 3 _ H3), map_length, seq_length; lia|]. split; [exact Hlen|].
  intros a k g Ha Hg. pose proof (G1 a k g Ha Hg) as E. split; [exact E|]. rewrite (Nat.mul_comm 3 k). apply slice_row; [exact H3|].
  pose proof (nth_error_bound _ _ _ E) as B. rewrite nth_error_map_some, nth_error_seq by lia. cbn [option_map plus]. unfold row. now rewrite (nth_error_nth _ _ 0%Z E).
Qed.
End Geom.

(** ** All ranks *)
Lemma omap_ex {A B} (f : A -> option B) (Q : A -> B -> Prop) l : (forall a, In a l -> exists b, f a = Some b /\ Q a b) -> exists bs, omap f l = Some bs /\ Forall2 Q l bs.
Proof.
  induction l as [|a l IH]; intro H; [exists []; split; [reflexivity|constructor]|]. destruct (H a (or_introl eq_refl)) as (b & E & Qb). destruct IH as (bs & Es & Qs); [intros; apply H; now right|].
  exists (b :: bs). cbn [omap]. rewrite E. cbn [obind]. rewrite Es. split; [reflexivity|now constructor].
Qed.
Lemma Forall2_nth {A B} (R : A -> B -> Prop) l m i a : Forall2 R l m -> nth_error l i = Some a -> exists b, nth_error m i = Some b /\ R a b.
Proof. intro H. revert i. induction H as [|x y l m Hxy H IH]; intros [|i] E; try discriminate; cbn [nth_error] in *; [injection E as <-; eauto|eauto]. Qed.
Lemma Forall2_nth_r {A B} (R : A -> B -> Prop) l m i b : Forall2 R l m -> nth_error m i = Some b -> exists a, nth_error l i = Some a /\ R a b.
Proof. intro H. revert i. induction H as [|x y l m Hxy H IH]; intros [|i] E; try discriminate; cbn [nth_error] in *; [injection E as <-; eauto|eauto]. Qed.
Lemma lsum_seq_le f s s' : s < s' -> lsum (map f (seq 0 s)) + f s <= lsum (map f (seq 0 s')).
Proof.
  intro H. replace s' with (s + S (s' - S s)) by lia. rewrite seq_app, map_app, lsum_app. cbn [seq map plus]. rewrite lsum_cons. lia.
Qed.
Lemma number_inj f s i s' i' : i < f s -> i' < f s' -> node_number f (s, i) = node_number f (s', i') -> s = s' /\ i = i'.
Proof.
  unfold node_number. cbn [fst snd]. intros H1 H2 E. apply Nat2Z.inj in E. destruct (Nat.lt_trichotomy s s') as [L|[->|L]]; [|lia|]; pose proof (lsum_seq_le f _ _ L); lia.
Qed.
Lemma Forall2_app_l {A B} (R : A -> B -> Prop) l1 l2 m : Forall2 R (l1 ++ l2) m -> exists m1 m2, m = m1 ++ m2 /\ Forall2 R l1 m1 /\ Forall2 R l2 m2.
Proof. intro H. apply Forall2_app_inv_l in H as (m1 & m2 & H1 & H2 & ->). eauto. Qed.

Lemma Forall2_len {A B} (R : A -> B -> Prop) l m : Forall2 R l m -> length l = length m.
Proof. induction 1; cbn; congruence. Qed.
Lemma Forall2_impl_in {A B} (R R' : A -> B -> Prop) l m : (forall a b, In a l -> R a b -> R' a b) -> Forall2 R l m -> Forall2 R' l m.
Proof. intros H F. induction F as [|a b l m Hab F IH]; constructor; [apply H; [now left|exact Hab]|apply IH; intros; apply H; [now right|assumption]]. Qed.

Section World.
Variables (P : nat) (nbx nbx0 nbx1 : (nat -> list nat) -> nat -> list nat).
Variables (types : nat) (width : nat -> nat) (cells : nat -> nat -> list Z).
Variables (dest : nat -> list (list nat)) (remap : nat -> nat -> list nat) (ds : nat -> nat -> list (list nat)).
Hypothesis Hnbx : nbx_oracle P nbx.
Hypothesis Hw : forall t, t < types -> 0 < width t.
Hypothesis Hc : forall t q, t < types -> q < P -> length (cells t q) = length (ds t q) * width t.
Hypothesis Hd : forall q, q < P -> dest q = concat (map (fun t => ds t q) (seq 0 types)).
Hypothesis Hds : forall t, t < types -> destinations_ok P (ds t).
Hypothesis Hr : forall t r own, t < types -> r < P -> owned_nodes P (ds t) r own -> Permutation (remap t r) (seq 0 (length own)).

Lemma ncells t q : t < types -> q < P -> num_cells width cells t q = length (ds t q).
Proof. intros Ht Hq. unfold num_cells. rewrite (Hc t q Ht Hq). apply Nat.div_mul. specialize (Hw t Ht). lia. Qed.
Lemma dest_type_ok t q : t < types -> q < P -> dest_type width cells dest t q = Some (ds t q).
Proof.
  intros Ht Hq. unfold dest_type. rewrite (Hc t q Ht Hq), Nat.mod_mul by (specialize (Hw t Ht); lia). cbn [Nat.eqb negb]. rewrite (ncells t q Ht Hq), (Hd q Hq).
  assert (E : cell_offset width cells t q = length (concat (map (fun t => ds t q) (seq 0 t)))).
  { unfold cell_offset. rewrite <- lsum_concat_length, map_map. f_equal. apply map_ext_in. intros t' H. apply in_seq in H. apply ncells; [lia|exact Hq]. }
  rewrite E. replace types with (t + S (types - S t)) by lia. rewrite seq_app, map_app, concat_app. cbn [plus seq map concat]. apply slice_app_mid.
Qed.

Lemma rows_eq t q : t < types -> q < P -> dest_rows width cells dest t q = ds t q.
Proof. intros Ht Hq. unfold dest_rows. now rewrite (dest_type_ok t q Ht Hq). Qed.
Lemma owned_ext t r own : t < types -> owned_nodes P (dest_rows width cells dest t) r own <-> owned_nodes P (ds t) r own.
Proof.
  intro Ht. unfold owned_nodes. split; intros (H1 & H2); (split; [exact H1|]); intros s i; rewrite H2; split; intros (Hs & di & H); (split; [exact Hs|]); exists di; rewrite (rows_eq t s Ht Hs) in *; exact H.
Qed.
Lemma ghost_ext t r gh : t < types -> ghost_nodes P (dest_rows width cells dest t) r gh -> ghost_nodes P (ds t) r gh.
Proof.
  intros Ht (H1 & H2). split; [exact H1|]. intros s i. rewrite H2. split; intros (Hs & di & H); (split; [exact Hs|]); exists di; rewrite (rows_eq t s Ht Hs) in *; exact H.
Qed.
Lemma number_ext t n : t < types -> fst n < P -> node_number (fun s => length (dest_rows width cells dest t s)) n = node_number (fun s => length (ds t s)) n.
Proof. intros Ht Hn. unfold node_number. do 3 f_equal. apply map_ext_in. intros s Hs. apply in_seq in Hs. rewrite rows_eq; [reflexivity|exact Ht|lia]. Qed.
Lemma mesh_cells_ok t r : t < types -> r < P -> exists own own' gh rows owners,
  owned_nodes P (ds t) r own /\ ghost_nodes P (ds t) r gh /\ reordered (remap t r) own own' /\
  Forall2 (fun n row => slice (cells t (fst n)) (snd n * width t) (snd n * width t + width t) = Some row) (own' ++ gh) rows /\
  Forall2 (fun n o => exists d, hd_error (nth (snd n) (ds t (fst n)) []) = Some d /\ o = Z.of_nat d) gh owners /\
  mesh_cells P nbx width cells dest remap t r = Some (concat rows, (map (node_number (fun s => length (ds t s))) (own' ++ gh), owners)) /\
  (forall n, In n (own' ++ gh) -> In n (own ++ gh)).
Proof.
  intros Ht Hr'. destruct (distribute_fixed_ok P nbx (cells t) (fun _ => width t) (width t) (dest_rows width cells dest t)) with (r := r) as (own & gh & rows & owners & H1 & H2 & H3 & H4 & H5).
  { exact Hnbx. }
  { intros s di Hs H. rewrite (rows_eq t s Ht Hs) in H. exact (Hds t Ht s di Hs H). }
  { reflexivity. }
  { intros q Hq. rewrite (rows_eq t q Ht Hq). now apply Hc. }
  { exact Hr'. }
  apply (owned_ext t r own Ht) in H1. apply (ghost_ext t r gh Ht) in H2.
  pose proof (Hr t r own Ht Hr' H1) as Hp. pose proof (Forall2_len _ _ _ H4) as Ho.
  destruct (Forall2_app_l _ _ _ _ H3) as (ro & rg & -> & Fo & Fg). pose proof (Forall2_len _ _ _ Fo) as Lo.
  assert (Wo : forall row, In row ro -> length row = width t).
  { intros row H. apply In_nth_error in H as (k & Hk). destruct (Forall2_nth_r _ _ _ _ _ Fo Hk) as (n & _ & E). apply slice_some in E as (_ & B & ->). rewrite firstn_length, skipn_length. lia. }
  assert (Hin : forall n, In n (moved (remap t r) (length own) (0, 0) own ++ gh) -> In n (own ++ gh)).
  { intros n H. apply in_app_iff in H as [H|H]; apply in_or_app; [left; eapply moved_in; eauto|now right]. }
  assert (HP : forall n, In n (own ++ gh) -> fst n < P).
  { intros (s, i) H. apply in_app_iff in H as [H|H]; [apply (proj2 H1) in H|apply (proj2 H2) in H]; exact (proj1 H). }
  exists own, (moved (remap t r) (length own) (0, 0) own), gh, (moved (remap t r) (length own) [] ro ++ rg), owners.
  split; [exact H1|]. split; [exact H2|]. split; [now apply moved_ok|]. split; [apply Forall2_app; [now apply moved_Forall2|exact Fg]|]. split; [|split; [|exact Hin]].
  - assert (Hg : forall n, In n gh -> fst n < P) by (intros n H; apply HP; apply in_or_app; now right). eapply Forall2_impl_in; [|exact H4].
    intros n o Hn (d & E1 & E2). cbn beta. exists d. split; [|exact E2]. rewrite (rows_eq t (fst n) Ht (Hg n Hn)) in E1. exact E1.
  - unfold mesh_cells. rewrite (dest_type_ok t r Ht Hr'). cbn [obind]. rewrite H5. cbn [obind].
    rewrite concat_app. rewrite (reorder_cells_ok (remap t r) (length own) Hp (width t) ro (concat rg) Wo) by lia. cbn [obind].
    rewrite (map_ext_in _ (node_number (fun s => length (ds t s))) (own ++ gh)) by (intros n H; apply number_ext; auto).
    rewrite map_app, <- Ho, <- (map_length (node_number (fun s => length (ds t s))) gh). rewrite (reorder_original_ok (remap t r) (length own) Hp) by (now rewrite map_length). cbn [obind].
    rewrite concat_app, map_app. do 4 f_equal.
    rewrite <- moved_map. unfold moved. apply map_ext_in. intros k Hk. apply in_seq in Hk. apply nth_indep. rewrite map_length. apply pos_lt; [exact Hp|lia].
Qed.

Section Coordinates.
Context {T : Type} (zero : T).
Variables (commg : list nat) (x : nat -> list (list T)) (dim : nat) (dofmaps : nat -> list (list nat)).
Let X := concat (map x commg).
Hypothesis Hnbx0 : nbx_oracle P nbx0.
Hypothesis Hnbx1 : nbx_oracle P nbx1.
Hypothesis Hg1 : NoDup commg.
Hypothesis Hg2 : forall q, In q commg -> q < P.
Hypothesis Hg3 : forall q, q < P -> ~ In q commg -> x q = [].
Hypothesis Hdim : 0 < dim <= 3.
Hypothesis Hx : forall q row, In q commg -> In row (x q) -> length row = dim.
Hypothesis Hcells : forall t q g, t < types -> q < P -> In g (cells t q) -> (0 <= g < Z.of_nat (length X))%Z.

Definition cs_ok (r t : nat) (c : list Z * (list Z * list Z)) : Prop :=
  (forall g, In g (fst c) -> (0 <= g < Z.of_nat (length X))%Z) /\
  (forall a s i j g, nth_error (fst (snd c)) a = Some (node_number (fun s => length (ds t s)) (s, i)) -> s < P -> i < length (ds t s) -> j < width t ->
     nth_error (cells t s) (i * width t + j) = Some g -> nth_error (fst c) (a * width t + j) = Some g).
Lemma slice_nth {A} (l : list A) a b m j : slice l a b = Some m -> j < b - a -> nth_error m j = nth_error l (a + j).
Proof.
  intros H Hj. apply slice_some in H as (H1 & H2 & ->). rewrite nth_error_firstn by exact Hj. now rewrite nth_error_skipn.
Qed.
Lemma cells_of t r : t < types -> r < P -> exists c, mesh_cells P nbx width cells dest remap t r = Some c /\ cs_ok r t c.
Proof.
  intros Ht Hr'. destruct (mesh_cells_ok t r Ht Hr') as (own & own' & gh & rows & owners & H1 & H2 & _ & H4 & _ & E & Hin). eexists. split; [exact E|].
  assert (HP : forall n, In n (own' ++ gh) -> fst n < P /\ snd n < length (ds t (fst n))).
  { intros (s, i) H. apply Hin in H. apply in_app_iff in H as [H|H]; [apply (proj2 H1) in H|apply (proj2 H2) in H]; destruct H as (Hs & di & Hdi & _); (split; [exact Hs|]); cbn [fst snd]; eapply nth_error_bound; eauto. }
  assert (Wr : forall row, In row rows -> length row = width t).
  { intros row H. apply In_nth_error in H as (k & Hk). destruct (Forall2_nth_r _ _ _ _ _ H4 Hk) as (n & _ & Es). apply slice_some in Es as (_ & B & ->). rewrite firstn_length, skipn_length. lia. }
  split; cbn [fst snd].
  - intros g H. apply in_concat in H as (row & Hrow & H). apply In_nth_error in Hrow as (k & Hk). destruct (Forall2_nth_r _ _ _ _ _ H4 Hk) as (n & Hn & Es). apply In_nth_error in H as (j & Hj).
    pose proof (nth_error_bound _ _ _ Hj) as B. rewrite (Wr row (nth_error_In _ _ Hk)) in B. rewrite (slice_nth _ _ _ _ j Es) in Hj by lia. apply (Hcells t (fst n) g Ht); [apply HP; eapply nth_error_In; eauto|eapply nth_error_In; eauto].
  - intros a s i j g Ha Hs Hi Hj Hg. rewrite nth_error_map_some in Ha. destruct (nth_error (own' ++ gh) a) as [n|] eqn:En; [|discriminate]. cbn [option_map] in Ha. injection Ha as Ha.
    destruct (HP n (nth_error_In _ _ En)) as (Hs' & Hi'). destruct n as (s', i'). cbn [fst snd] in *. destruct (number_inj (fun s => length (ds t s)) s' i' s i Hi' Hi Ha) as (-> & ->).
    destruct (Forall2_nth _ _ _ _ _ H4 En) as (row & Erow & Es). cbn [fst snd] in Es. rewrite (row_nth (width t) rows a row j Wr Erow Hj). rewrite (slice_nth _ _ _ _ j Es) by lia. exact Hg.
Qed.
Lemma types_ok r : r < P -> exists cs, omap (fun t => mesh_cells P nbx width cells dest remap t r) (seq 0 types) = Some cs /\ Forall2 (fun t c => mesh_cells P nbx width cells dest remap t r = Some c /\ cs_ok r t c) (seq 0 types) cs.
Proof.
  intro Hr'. apply omap_ex. intros t Ht. apply in_seq in Ht. destruct (cells_of t r) as (c & E & H); [lia|exact Hr'|]. exists c. auto.
Qed.
Lemma nodes2_ok r : r < P -> exists cs, omap (fun t => mesh_cells P nbx width cells dest remap t r) (seq 0 types) = Some cs /\ nodes2 P nbx types width cells dest remap r = Some (concat (map fst cs)) /\
  forall g, In g (concat (map fst cs)) -> (0 <= g < Z.of_nat (length X))%Z.
Proof.
  intro Hr'. destruct (types_ok r Hr') as (cs & E & F). exists cs. split; [exact E|]. split; [unfold nodes2; now rewrite E|].
  intros g H. apply in_concat in H as (l & Hl & H). apply in_map_iff in Hl as (c & <- & Hc'). apply In_nth_error in Hc' as (k & Hk). destruct (Forall2_nth_r _ _ _ _ _ F Hk) as (t & _ & _ & (K & _)). now apply K.
Qed.
Lemma concat_at {A B} (ls : list (list A)) (ms : list (list B)) t l m a y z : Forall2 (fun d c => length d = length c) ls ms -> nth_error ls t = Some l -> nth_error ms t = Some m ->
  nth_error l a = Some y -> nth_error m a = Some z -> exists b, nth_error (concat ls) b = Some y /\ nth_error (concat ms) b = Some z.
Proof.
  intro H. revert t. induction H as [|d c ls ms Hdc H IH]; intros [|t] E1 E2 Ey Ez; try discriminate; cbn [nth_error concat] in *.
  - injection E1 as ->. injection E2 as ->. exists a. rewrite !nth_error_app1 by (eapply nth_error_bound; eauto). auto.
  - destruct (IH t E1 E2 Ey Ez) as (b & B1 & B2). exists (length d + b). rewrite (nth_error_app2 d), (nth_error_app2 c) by lia. replace (length d + b - length d) with b by lia. replace (length d + b - length c) with b by lia. auto.
Qed.

Lemma mesh_geometry_ok r : r < P ->
  (forall cs, omap (fun t => mesh_cells P nbx width cells dest remap t r) (seq 0 types) = Some cs -> numbers_cells (dofmaps r) (map fst cs)) ->
  exists xg igi, mesh_geometry P nbx nbx0 nbx1 types width cells dest remap zero commg x dim dofmaps r = Some (xg, igi) /\
    forall t cells1 orig owners dofmap c s i j g k,
      t < types -> mesh_cells P nbx width cells dest remap t r = Some (cells1, (orig, owners)) -> nth_error (dofmaps r) t = Some dofmap ->
      s < P -> i < length (ds t s) -> j < width t ->
      nth_error orig c = Some (node_number (fun s => length (ds t s)) (s, i)) ->
      nth_error (cells t s) (i * width t + j) = Some g -> nth_error dofmap (c * width t + j) = Some k ->
      nth_error igi k = Some g /\
      exists row, nth_error X (Z.to_nat g) = Some row /\ slice xg (3 * k) (3 * k + 3) = Some (row ++ repeat zero (3 - dim)).
Proof.
  intros Hr' Hn. destruct (types_ok r Hr') as (cs & E & F). destruct (Hn cs E) as (Hl & Hnum). destruct (nodes2_ok r Hr') as (cs' & E' & En & HX). rewrite E in E'. injection E' as <-.
  set (n2 := concat (map fst cs)) in *. set (Xf := fun g : Z => nth (Z.to_nat g) X (repeat zero dim)).
  assert (HXrow : forall g, (0 <= g < Z.of_nat (length X))%Z -> nth_error X (Z.to_nat g) = Some (Xf g) /\ length (Xf g) = dim).
  { intros g Hg. assert (Eg : nth_error X (Z.to_nat g) = Some (Xf g)) by (apply nth_error_nth'; lia). split; [exact Eg|]. apply nth_error_In in Eg. unfold X in Eg. apply in_concat in Eg as (l & Hl' & Eg). apply in_map_iff in Hl' as (q & <- & Hq). eapply Hx; eauto. }
  assert (Ec : mesh_geometry P nbx nbx0 nbx1 types width cells dest remap zero commg x dim dofmaps r = create_geometry zero (dofmaps r) (nodes1 n2) n2 (concat (map Xf (nodes1 n2))) dim).
  { unfold mesh_geometry. rewrite En. cbn [obind]. rewrite (distribute_data_ok (repeat zero dim) P x commg Hg1 Hg2 Hg3 nbx0 nbx1); [|exact Hnbx0|exact Hnbx1|exact Hr'|].
    - cbn [obind]. rewrite En, map_map. reflexivity.
    - intros q g Hq Hg. destruct (nodes2_ok q Hq) as (csq & _ & Eq & HXq). rewrite Eq in Hg. apply in_map_iff in Hg as (z & <- & Hz). apply (proj1 (nodes1_in _ _)) in Hz. specialize (HXq z Hz). fold X. lia. }
  rewrite Ec. destruct (create_geometry_ok zero (dofmaps r) n2 Xf dim Hdim) as (xg & igi & -> & _ & _ & K); [intros g Hg; specialize (HX g Hg); split; [lia|now apply HXrow]|exact Hnum|].
  exists xg, igi. split; [reflexivity|]. intros t cells1 orig owners dofmap c s i j g k Ht Em Edm Hs Hi Hj Ho Hg Hk.
  destruct (Forall2_nth _ _ _ t t F) as (c0 & Ec0 & Em0 & (_ & K0)); [rewrite nth_error_seq by exact Ht; reflexivity|]. rewrite Em in Em0. injection Em0 as <-. cbn [fst snd] in K0.
  pose proof (K0 c s i j g Ho Hs Hi Hj Hg) as Eg.
  destruct (concat_at (dofmaps r) (map fst cs) t dofmap cells1 (c * width t + j) k g Hl Edm) as (b & B1 & B2); [now rewrite nth_error_map_some, Ec0|exact Hk|exact Eg|].
  destruct (K b k g B1 B2) as (K1 & K2). split; [exact K1|]. exists (Xf g). split; [|exact K2]. apply HXrow. apply HX. eapply nth_error_In; eauto.
Qed.
End Coordinates.
End World.

Lemma mesh_cells_statement :
  forall P nbx types width cells dest remap ds,
    nbx_oracle P nbx ->
    (forall t, t < types -> 0 < width t) ->
    (forall t q, t < types -> q < P -> length (cells t q) = length (ds t q) * width t) ->
    (forall q, q < P -> dest q = concat (map (fun t => ds t q) (seq 0 types))) ->
    (forall t, t < types -> destinations_ok P (ds t)) ->
    (forall t r own, t < types -> r < P -> owned_nodes P (ds t) r own ->
       Permutation (remap t r) (seq 0 (length own))) ->
    forall t r, t < types -> r < P -> exists own own' gh rows owners,
      owned_nodes P (ds t) r own /\ ghost_nodes P (ds t) r gh /\ reordered (remap t r) own own' /\
      Forall2 (fun n row => slice (cells t (fst n)) (snd n * width t) (snd n * width t + width t) = Some row)
              (own' ++ gh) rows /\
      Forall2 (fun n o => exists d, hd_error (nth (snd n) (ds t (fst n)) []) = Some d /\ o = Z.of_nat d) gh owners /\
      mesh_cells P nbx width cells dest remap t r =
        Some (concat rows, (map (node_number (fun s => length (ds t s))) (own' ++ gh), owners)).
Proof.
  intros P nbx types width cells dest remap ds Hnbx Hw Hc Hd Hds Hr t r Ht Hr'.
  destruct (mesh_cells_ok P nbx nbx nbx types width cells dest remap ds Hnbx Hw Hc Hd Hds Hr t r Ht Hr') as (own & own' & gh & rows & owners & H1 & H2 & H3 & H4 & H5 & H6 & _). exists own, own', gh, rows, owners. auto 10.
Qed.
Definition mesh_geometry_statement (T : Type) (zero : T) P nbx nbx0 nbx1 types width cells dest remap ds commg x dim dofmaps Hnbx Hnbx0 Hnbx1 Hw Hc Hd Hds Hr Hg1 Hg2 Hg3 Hdim Hx Hcells r Hr' :=
  mesh_geometry_ok P nbx nbx0 nbx1 types width cells dest remap ds Hnbx Hw Hc Hd Hds Hr zero commg x dim dofmaps Hnbx0 Hnbx1 Hg1 Hg2 Hg3 Hdim Hx Hcells r Hr'.

(** Sorted lists of nodes are determined by their elements. *)
Lemma sorted_nodes_eq (l m : list (nat * nat)) : StronglySorted node_order l -> StronglySorted node_order m -> (forall n, In n l <-> In n m) -> l = m.
Proof.
  intro Hl. revert m. induction Hl as [|a l Hs IH Hf]; intros m Hm H.
  - destruct m as [|b m]; [reflexivity|]. exfalso. apply (proj2 (H b)). now left.
  - destruct Hm as [|b m Hs' Hf']; [exfalso; apply (proj1 (H a)); now left|]. rewrite Forall_forall in Hf, Hf'. unfold node_order in Hf, Hf'.
    assert (E : a = b).
    { destruct (proj1 (H a) (or_introl eq_refl)) as [E|Ha]; [now symmetry|]. destruct (proj2 (H b) (or_introl eq_refl)) as [E|Hb]; [exact E|]. specialize (Hf b Hb). specialize (Hf' a Ha). lia. }
    subst b. f_equal. apply IH; [exact Hs'|]. intro n. split; intro Hn.
    + destruct (proj1 (H n) (or_intror Hn)) as [E|K]; [|exact K]. subst n. specialize (Hf a Hn). lia.
    + destruct (proj2 (H n) (or_intror Hn)) as [E|K]; [|exact K]. subst n. specialize (Hf' a Hn). lia.
Qed.
