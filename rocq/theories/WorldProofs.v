From Verif Require Import Base BaseProofs BucketProofs Algo AlgoProofs Nbx World.

Lemma list_nat_eqb_eq a b : list_nat_eqb a b = true <-> a = b.
Proof.
  unfold list_nat_eqb. rewrite andb_true_iff, Nat.eqb_eq. split.
  - intros (Hl & H). revert b Hl H. induction a as [|x a IH]; intros [|y b] Hl H; try discriminate; auto.
    cbn in H. apply andb_true_iff in H as (Hx & H). apply Nat.eqb_eq in Hx. cbn in Hx. subst y. f_equal.
    apply IH; auto.
  - intros <-. split; [reflexivity|]. induction a as [|x a IH]; [reflexivity|]. cbn. now rewrite Nat.eqb_refl.
Qed.
Lemma list_nat_eqb_refl a : list_nat_eqb a a = true.
Proof. now apply list_nat_eqb_eq. Qed.

Lemma graph_ok_sym P srcs dests : graph_ok P srcs dests -> graph_ok P dests srcs.
Proof. intros H r Hr. destruct (H r Hr) as (A & B & C & D). auto. Qed.

Lemma neigh_alltoall_spec {A} P srcs dests send (B : nat -> nat -> A) r :
  graph_ok P srcs dests -> r < P ->
  (forall s, In s (srcs r) -> send s = Some (map (B s) (dests s))) ->
  neigh_alltoall P srcs dests send r = Some (map (fun s => B s r) (srcs r)).
Proof.
  intros HG Hr Hs. unfold neigh_alltoall. destruct (HG r Hr) as (_ & _ & Hd & Hsr).
  replace (forallb _ (dests r)) with true.
  2:{ symmetry. apply forallb_forall. intros d Hin. apply Hd in Hin as (HdP & Hin).
      apply andb_true_iff. split; [now apply Nat.ltb_lt|now apply mem_iff]. }
  apply omap_map. intros s Hin. pose proof (Hs s Hin) as E. apply Hsr in Hin as (HsP & Hin).
  destruct (Nat.ltb_spec s P); [|lia]. rewrite E. cbn [obind].
  destruct (index_in_in r (dests s) Hin) as (k & Ek). rewrite Ek. cbn [obind].
  rewrite nth_error_map_some, (index_in_some _ _ _ Ek). reflexivity.
Qed.

Lemma sblocks_concat {A} (L : list (list A)) :
  sblocks (length L) (concat L, (map (@length A) L, psums (map (@length A) L))) = Some L.
Proof.
  unfold sblocks. rewrite omap_map with (g := fun j => nth j L []).
  - f_equal. apply nth_error_ext. intro i. rewrite nth_error_map_some.
    destruct (Nat.lt_ge_cases i (length L)) as [Hi|Hi].
    + rewrite nth_error_seq by exact Hi. cbn. destruct (nth_error_lt L i Hi) as (x & Hx).
      rewrite Hx. f_equal. erewrite nth_error_nth; eauto.
    + transitivity (@None (list A)); [|symmetry; now apply nth_error_None].
      replace (nth_error (seq 0 (length L)) i) with (@None nat); [reflexivity|].
      symmetry. apply nth_error_None. rewrite seq_length. exact Hi.
  - intros j Hj. apply in_seq in Hj. destruct (nth_error_lt L j) as (x & Hx); [lia|].
    rewrite psums_nth by (rewrite map_length; lia). cbn [obind].
    rewrite nth_error_map_some, Hx. cbn [option_map obind].
    pose proof (slice_at_concat L j x Hx) as S. unfold slice_at in S.
    rewrite !psums_nth in S by (rewrite map_length; lia). cbn [obind] in S.
    rewrite (lsum_firstn_S _ _ (length x)) in S by (rewrite nth_error_map_some, Hx; reflexivity).
    rewrite S. f_equal. symmetry. apply nth_error_nth. exact Hx.
Qed.

Lemma neigh_alltoallv_spec {A} P srcs dests send rsz (B : nat -> nat -> list A) r :
  graph_ok P srcs dests -> r < P ->
  (forall s, In s (srcs r) ->
     send s = Some (concat (map (B s) (dests s)),
                    (map (fun d => length (B s d)) (dests s),
                     psums (map (fun d => length (B s d)) (dests s))))) ->
  rsz r = Some (map (fun s => length (B s r)) (srcs r)) ->
  neigh_alltoallv P srcs dests send rsz r = Some (concat (map (fun s => B s r) (srcs r))).
Proof.
  intros HG Hr Hs Hz. unfold neigh_alltoallv.
  rewrite neigh_alltoall_spec with (B := B); auto.
  - cbn [obind]. rewrite Hz. cbn [obind]. rewrite map_map, list_nat_eqb_refl. reflexivity.
  - intros s Hin. rewrite (Hs s Hin). cbn [obind].
    pose proof (sblocks_concat (map (B s) (dests s))) as S. rewrite map_length, !map_map in S. exact S.
Qed.

(** ** The consensus oracle gives consistent graphs *)
Lemma oracle_in P nbx dests r s : nbx_oracle P nbx -> r < P ->
  In s (nbx dests r) <-> s < P /\ In r (dests s).
Proof.
  intros H Hr. specialize (H dests r Hr). split.
  - intro Hs. eapply Permutation_in in Hs; [|exact H]. unfold senders in Hs. apply in_flat_map in Hs as (x & Hx & Hs).
    apply in_map_iff in Hs as (y & <- & Hy). apply filter_In in Hy as (Hy & E). apply Nat.eqb_eq in E. subst y.
    apply in_seq in Hx. split; [lia|exact Hy].
  - intros (HsP & Hin). eapply Permutation_in; [symmetry; exact H|]. unfold senders. apply in_flat_map. exists s.
    split; [apply in_seq; lia|]. apply in_map_iff. exists r. split; [reflexivity|].
    apply filter_In. split; [exact Hin|apply Nat.eqb_refl].
Qed.

Lemma filter_eq_NoDup r l : NoDup l -> filter (Nat.eqb r) l = if mem r l then [r] else [].
Proof.
  induction 1 as [|x t Hx Hn IH]; [reflexivity|]. cbn. destruct (Nat.eqb_spec r x) as [->|Ne]; cbn.
  - rewrite IH. replace (mem x t) with false; [reflexivity|]. symmetry. apply not_true_iff_false.
    now rewrite mem_iff.
  - rewrite IH. reflexivity.
Qed.

Lemma senders_filter P dests r : (forall s, s < P -> NoDup (dests s)) ->
  flat_map (fun s => map (fun _ : nat => s) (filter (Nat.eqb r) (dests s))) (seq 0 P)
  = filter (fun s => mem r (dests s)) (seq 0 P).
Proof.
  intro Hn. assert (G : forall n a, (forall s, a <= s < a + n -> NoDup (dests s)) ->
    flat_map (fun s => map (fun _ : nat => s) (filter (Nat.eqb r) (dests s))) (seq a n)
    = filter (fun s => mem r (dests s)) (seq a n)).
  { induction n as [|n IH]; intros a H; [reflexivity|]. cbn [seq flat_map filter].
    rewrite IH by (intros; apply H; lia). rewrite filter_eq_NoDup by (apply H; lia).
    destruct (mem r (dests a)); reflexivity. }
  apply G. intros. apply Hn. lia.
Qed.

(** Sorted consensus result. *)
Lemma oracle_sorted P nbx dests r : nbx_oracle P nbx -> r < P -> (forall s, s < P -> NoDup (dests s)) ->
  isort Nat.leb (nbx dests r) = filter (fun s => mem r (dests s)) (seq 0 P).
Proof.
  intros H Hr Hn. apply nsort_unique.
  - eapply SS_impl_in; [|apply SS_filter, SS_lt_seq]. cbn; intros; lia.
  - rewrite (H dests r Hr). unfold senders. rewrite senders_filter by exact Hn. reflexivity.
Qed.
