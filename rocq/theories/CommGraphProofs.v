From Verif Require Import Base BaseProofs BucketProofs Algo AlgoProofs AdjList AdjListSpec AdjListProofs IndexMap IndexMapSpec IndexMapProofs ImSharedProofs Plaza CommGraph CommGraphSpec.

Lemma inter_nil l : set_intersection l [] = [].
Proof. now destruct l. Qed.
Lemma inter_cons x t y u : set_intersection (x :: t) (y :: u) =
  if x <? y then set_intersection t (y :: u) else if y <? x then set_intersection (x :: t) u else x :: set_intersection t u.
Proof. reflexivity. Qed.

Lemma inter_in a : forall b, StronglySorted lt a -> StronglySorted lt b -> forall x, In x (set_intersection a b) <-> In x a /\ In x b.
Proof.
  induction a as [|x t IH]; intros b Ha Hb z; [destruct b; cbn; tauto|].
  inversion Ha as [|? ? Ht Hx]; subst. rewrite Forall_forall in Hx.
  induction b as [|y u IHu]; [rewrite inter_nil; cbn; tauto|].
  inversion Hb as [|? ? Hu Hy]; subst. rewrite Forall_forall in Hy. rewrite inter_cons.
  destruct (Nat.ltb_spec x y) as [L|L].
  - rewrite IH by assumption. cbn. split; [tauto|]. intros ([->|H] & H1); [|tauto]. exfalso. destruct H1 as [->|H1]; [lia|]. specialize (Hy _ H1). lia.
  - destruct (Nat.ltb_spec y x) as [L'|L'].
    + rewrite (IHu Hu). cbn. split; [tauto|]. intros (H1 & [->|H]); [|tauto]. exfalso. destruct H1 as [->|H1]; [lia|]. specialize (Hx _ H1). lia.
    + assert (x = y) by lia. subst y. cbn. rewrite IH by assumption. split; [intuition congruence|]. intros (H & H1). destruct H as [H|H]; [now left|]. destruct H1 as [H1|H1]; [now left|]. right. tauto.
Qed.

Lemma inter_sorted a : forall b, StronglySorted lt a -> StronglySorted lt b -> StronglySorted lt (set_intersection a b).
Proof.
  induction a as [|x t IH]; intros b Ha Hb; [destruct b; constructor|].
  inversion Ha as [|? ? Ht Hx]; subst. rewrite Forall_forall in Hx.
  induction b as [|y u IHu]; [rewrite inter_nil; constructor|].
  inversion Hb as [|? ? Hu Hy]; subst. rewrite inter_cons.
  destruct (x <? y); [now apply IH|]. destruct (y <? x); [now apply IHu|].
  constructor; [now apply IH|]. apply Forall_forall. intros z Hz. apply inter_in in Hz; [|assumption|assumption]. apply Hx. tauto.
Qed.

Lemma lt_sorted_ext a : forall b, StronglySorted lt a -> StronglySorted lt b -> (forall x, In x a <-> In x b) -> a = b.
Proof.
  induction a as [|x t IH]; intros [|y u] Ha Hb H.
  - reflexivity.
  - exfalso. apply (H y). now left.
  - exfalso. apply (H x). now left.
  - inversion Ha as [|? ? Ht Hx]; subst. inversion Hb as [|? ? Hu Hy]; subst. rewrite Forall_forall in Hx, Hy.
    assert (x = y).
    { destruct (proj1 (H x) (or_introl eq_refl)) as [E|E]; [easy|]. destruct (proj2 (H y) (or_introl eq_refl)) as [E'|E']; [easy|].
      specialize (Hx _ E'). specialize (Hy _ E). lia. }
    subst y. f_equal. apply IH; [assumption|assumption|]. intro z. split; intro Hz.
    + destruct (proj1 (H z) (or_intror Hz)) as [->|]; [|assumption]. specialize (Hx _ Hz). lia.
    + destruct (proj2 (H z) (or_intror Hz)) as [->|]; [|assumption]. specialize (Hy _ Hz). lia.
Qed.

Lemma filter_sorted (p : nat -> bool) l : StronglySorted lt l -> StronglySorted lt (filter p l).
Proof.
  induction 1 as [|x t Ht IH Hx]; cbn; [constructor|]. destruct (p x); [|exact IH]. constructor; [exact IH|].
  rewrite Forall_forall in *. intros z Hz. apply filter_In in Hz. now apply Hx.
Qed.
Lemma seq_sorted_lt n : forall a, StronglySorted lt (seq a n).
Proof. induction n as [|n IH]; intro a; cbn; constructor; [apply IH|]. apply Forall_forall. intros x Hx. apply in_seq in Hx. lia. Qed.

Section G.
Variables (P : nat) (maps : nat -> imap) (node : nat -> nat).
Hypothesis Hok : maps_ok P maps.

Lemma owner_counts r q : r < P -> q < P ->
  length (filter (Nat.eqb r) (im_owners (maps q))) = length (ghosts_from maps r q).
Proof.
  intros Hr Hq. unfold ghosts_from. pose proof (mo_len _ _ Hok q Hq) as L. pose proof (mo_owner _ _ Hok q) as O.
  revert L O. generalize (im_ghosts (maps q)) as gs. generalize (im_owners (maps q)) as os.
  induction os as [|o os IH]; intros [|g gs] L O; try discriminate; [reflexivity|].
  cbn [filter]. assert (E : (r =? o) = (im_lo (maps r) <=? g) && (g <? im_hi (maps r))).
  { destruct (O 0 g o Hq eq_refl eq_refl) as (Ho & _ & Hg). destruct (Nat.eqb_spec r o) as [->|N].
    - symmetry. unfold owns in Hg. apply andb_true_iff. split; [apply Nat.leb_le|apply Nat.ltb_lt]; lia.
    - destruct (Nat.leb_spec (im_lo (maps r)) g), (Nat.ltb_spec g (im_hi (maps r))); try reflexivity.
      exfalso. apply N. apply (owner_unique P maps Hok r o g); try assumption. now split. }
  rewrite <- E. specialize (IH gs ltac:(cbn in L; lia) (fun k => O (S k))).
  destruct (r =? o); cbn [length]; now rewrite IH.
Qed.

Lemma dest_receivers r : r < P -> im_dest (maps r) = receivers P maps r.
Proof.
  intro Hr. destruct (mo_dest _ _ Hok r Hr) as (Hs & Hi). apply lt_sorted_ext; [exact Hs|apply filter_sorted, seq_sorted_lt|].
  intro q. rewrite Hi. unfold receivers. rewrite filter_In, in_seq, andb_true_iff, !negb_true_iff, !Nat.eqb_neq. split.
  - intros (Hq & Ho). split; [lia|]. split.
    + intros ->. destruct (In_nth_error _ _ Ho) as (k & Hk). destruct (nth_error (im_ghosts (maps r)) k) as [g|] eqn:Eg.
      * now destruct (mo_owner _ _ Hok r k g r Hr Eg Hk) as (_ & N & _).
      * apply nth_error_None in Eg. rewrite <- (mo_len _ _ Hok r Hr) in Eg. apply nth_error_None in Eg. congruence.
    + rewrite <- owner_counts by assumption. intro E. apply length_zero_iff_nil in E.
      assert (In r (filter (Nat.eqb r) (im_owners (maps q)))) as F by (apply filter_In; split; [exact Ho|apply Nat.eqb_refl]). now rewrite E in F.
  - intros ((_ & Hq) & _ & N). cbn in Hq. split; [exact Hq|]. rewrite <- owner_counts in N by assumption.
    destruct (filter (Nat.eqb r) (im_owners (maps q))) as [|o t] eqn:E; [easy|].
    assert (In o (filter (Nat.eqb r) (im_owners (maps q)))) as F by (rewrite E; now left).
    apply filter_In in F as (F & Eo). apply Nat.eqb_eq in Eo. now subst.
Qed.

Lemma split_filter r l : StronglySorted lt l -> (forall q, In q l -> q < P) ->
  set_intersection l (filter (fun q => node q =? node r) (seq 0 P)) = filter (fun q => node q =? node r) l.
Proof.
  intros Hl Hb. pose proof (filter_sorted (fun q => node q =? node r) _ (seq_sorted_lt P 0)) as Hs.
  apply lt_sorted_ext; [now apply inter_sorted|now apply filter_sorted|]. intro q. rewrite inter_in by assumption.
  rewrite !filter_In, in_seq. split; [tauto|]. intros (H & E). specialize (Hb _ H). repeat split; try assumption; lia.
Qed.

Lemma src_bound r : r < P -> forall q, In q (im_src (maps r)) -> q < P.
Proof.
  intros Hr q Hq. apply (mo_src _ _ Hok r Hr) in Hq. destruct (In_nth_error _ _ Hq) as (k & Hk).
  destruct (nth_error (im_ghosts (maps r)) k) as [g|] eqn:Eg; [now destruct (mo_owner _ _ Hok r k g q Hr Eg Hk)|].
  apply nth_error_None in Eg. rewrite <- (mo_len _ _ Hok r Hr) in Eg. apply nth_error_None in Eg. congruence.
Qed.

Lemma rank_type_ok r : r < P -> rank_type P maps node r =
  (filter (fun q => node q =? node r) (im_dest (maps r)), filter (fun q => node q =? node r) (im_src (maps r))).
Proof.
  intro Hr. unfold rank_type. rewrite !split_filter; [reflexivity|apply (mo_src _ _ Hok r Hr)|now apply src_bound|apply (mo_dest _ _ Hok r Hr)|].
  intros q Hq. apply (mo_dest _ _ Hok r Hr) in Hq. tauto.
Qed.

Lemma markers_ok r : r < P -> markers P maps node r = map (fun q => if node q =? node r then 1 else 0) (im_dest (maps r)).
Proof.
  intro Hr. unfold markers. rewrite rank_type_ok by exact Hr. cbn [fst]. apply map_ext_in. intros q Hq.
  destruct (mo_dest _ _ Hok r Hr) as (Hs & _). rewrite find_sorted_spec by now apply filter_sorted.
  destruct (node q =? node r) eqn:E.
  - destruct (index_in_in q (filter (fun q => node q =? node r) (im_dest (maps r)))) as (i & ->); [now apply filter_In|reflexivity].
  - rewrite index_in_none; [reflexivity|]. rewrite filter_In. intros (_ & E'). congruence.
Qed.

Lemma gatherv_ok {A} (f : nat -> list A) (c : nat -> nat) l : (forall q, In q l -> c q = length (f q)) ->
  gatherv (map c l) (map f l) = Some (concat (map f l)).
Proof.
  intro H. unfold gatherv. assert (forallb (fun cd => fst cd =? length (snd cd)) (combine (map c l) (map f l)) = true) as ->; [|reflexivity].
  induction l as [|q t IH]; [reflexivity|]. cbn. rewrite (H q (or_introl eq_refl)), Nat.eqb_refl. apply IH. intros; apply H; now right.
Qed.

Lemma combine_concat {A B C} (f : C -> list A) (g : C -> list B) l : (forall q, length (f q) = length (g q)) ->
  combine (concat (map f l)) (concat (map g l)) = concat (map (fun q => combine (f q) (g q)) l).
Proof.
  intro H. induction l as [|q t IH]; [reflexivity|]. cbn. rewrite <- IH. generalize (H q). generalize (f q) (g q).
  induction l as [|a l IHl]; intros [|b l'] E; try discriminate; [reflexivity|]. cbn. f_equal. apply IHl. now injection E.
Qed.
Lemma combine_map3 {A B C D} (f : A -> B) (g : A -> C) (h : A -> D) l : combine (combine (map f l) (map g l)) (map h l) = map (fun a => (f a, g a, h a)) l.
Proof. induction l as [|a t IH]; [reflexivity|]. cbn. now rewrite IH. Qed.
Lemma combine_map2 {A B C} (f : A -> B) (g : A -> C) l : combine (map f l) (map g l) = map (fun a => (f a, g a)) l.
Proof. induction l as [|a t IH]; [reflexivity|]. cbn. now rewrite IH. Qed.

Lemma make_rows {A W} (rows : list (list A)) (nd : list W) : length nd = length rows ->
  adj_make_nd (concat rows) (psums (map (@length A) rows)) nd = Some (mkAdj (concat rows) (psums (map (@length A) rows)), nd).
Proof.
  intro L. assert (adj_make (concat rows) (psums (map (@length A) rows)) = Some (mkAdj (concat rows) (psums (map (@length A) rows)))) as E.
  { apply adj_make_psums. clear L. induction rows as [|a t IH]; [reflexivity|]. cbn. rewrite app_length. cbn in IH. unfold lsum in *. cbn. lia. }
  pose proof (psums_length (map (@length A) rows)) as Lp. rewrite map_length in Lp.
  unfold adj_make_nd. destruct (psums (map (@length A) rows)) as [|o os]; [discriminate|]. cbn in Lp.
  rewrite E. cbn [obind]. destruct (Nat.eqb_spec (length nd) (length os)); [reflexivity|lia].
Qed.

Lemma comm_graph_ok root : root < P -> exists g,
  comm_graph P maps node root root = Some (g, map (fun r => (im_hi (maps r) - im_lo (maps r), length (im_ghosts (maps r)))) (seq 0 P)) /\
  stores g (map (edges_from P maps node) (seq 0 P)).
Proof.
  intro Hroot. eexists. split; [|apply stores_concat].
  unfold comm_graph. rewrite Nat.eqb_refl.
  set (w := fun r => map (fun q => length (ghosts_from maps r q)) (im_dest (maps r))).
  set (mk := fun r => map (fun q => if node q =? node r then 1 else 0) (im_dest (maps r))).
  rewrite (gatherv_ok (fun q => im_dest (maps q))) by reflexivity. cbn [obind].
  rewrite (omap_map _ w).
  2:{ intros r Hr. apply in_seq in Hr. rewrite (weights_dest_ok P maps Hok) by lia. f_equal. apply map_ext_in. intros q Hq.
      apply (mo_dest _ _ Hok r) in Hq; [|lia]. apply owner_counts; lia. }
  cbn [obind]. rewrite (gatherv_ok w) by (intros; unfold w; now rewrite map_length). cbn [obind].
  rewrite (map_ext_in (markers P maps node) mk) by (intros r Hr; apply in_seq in Hr; apply markers_ok; lia).
  rewrite (gatherv_ok mk) by (intros; unfold mk; now rewrite map_length). cbn [obind].
  rewrite combine_concat by (intros; unfold w; now rewrite map_length).
  rewrite (combine_concat (fun q => combine (im_dest (maps q)) (w q))) by (intros; unfold w, mk; rewrite combine_length, !map_length; lia).
  assert (E : map (fun q => combine (combine (im_dest (maps q)) (w q)) (mk q)) (seq 0 P) = map (edges_from P maps node) (seq 0 P)).
  { apply map_ext_in. intros r Hr. apply in_seq in Hr. unfold edges_from, w, mk. rewrite <- dest_receivers by lia.
    rewrite <- (map_id (im_dest (maps r))) at 1. apply combine_map3. }
  rewrite E, combine_map2.
  assert (E2 : map (fun q => length (im_dest (maps q))) (seq 0 P) = map (@length _) (map (edges_from P maps node) (seq 0 P))).
  { rewrite map_map. apply map_ext_in. intros r Hr. apply in_seq in Hr. unfold edges_from. rewrite map_length, <- dest_receivers by lia. reflexivity. }
  rewrite E2. apply make_rows. now rewrite !map_length.
Qed.

Lemma comm_graph_other root r : r <> root -> exists g,
  comm_graph P maps node root r = Some (g, repeat (0, 0) P) /\ stores g (repeat [] P).
Proof.
  intro H. exists (mkAdj (concat (repeat [] P)) (psums (map (@length (nat * nat * nat)) (repeat [] P)))). split; [|apply stores_concat].
  unfold comm_graph. destruct (Nat.eqb_spec r root); [easy|].
  replace (combine (repeat 0 P) (repeat 0 P)) with (repeat (0, 0) P) by (clear; induction P as [|n IH]; [reflexivity|]; cbn; now rewrite IH).
  rewrite <- make_rows by now rewrite !repeat_length.
  f_equal; [clear; now induction P|]. f_equal. clear. induction P as [|n IH]; [reflexivity|]. cbn. now rewrite IH.
Qed.
End G.

Lemma data_ok g nd rows : stores g rows -> comm_graph_data g nd =
  Some (concat (map (fun n => map (fun ewl => (n, fst (fst ewl), snd ewl, snd (fst ewl))) (nth n rows [])) (seq 0 (length rows))),
        map (fun n => (n, fst (nth n nd (0, 0)), snd (nth n nd (0, 0)))) (seq 0 (length nd))).
Proof.
  intros (Hn & Hl & _). unfold comm_graph_data. rewrite Hn.
  rewrite (omap_map _ (fun n => map (fun ewl => (n, fst (fst ewl), snd ewl, snd (fst ewl))) (nth n rows []))).
  2:{ intros n H. apply in_seq in H. rewrite (Hl n (nth n rows [])) by (apply nth_error_nth'; lia). reflexivity. }
  cbn [obind]. do 2 f_equal. assert (G : forall (l : list (nat * nat)) a,
    map (fun nw => (fst nw, fst (snd nw), snd (snd nw))) (combine (seq a (length l)) l) = map (fun n => (n, fst (nth (n - a) l (0, 0)), snd (nth (n - a) l (0, 0)))) (seq a (length l))).
  { induction l as [|x t IH]; intro a; [reflexivity|]. cbn [length seq combine map]. rewrite IH, Nat.sub_diag. f_equal. apply map_ext_in. intros n H. apply in_seq in H.
    replace (n - a) with (S (n - S a)) by lia. reflexivity. }
  rewrite G. apply map_ext. intro n. now rewrite Nat.sub_0_r.
Qed.
