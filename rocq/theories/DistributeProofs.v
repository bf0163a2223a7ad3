(** Nodes sent to other processes. *)
From Verif Require Import Base BaseProofs Algo AlgoProofs BucketProofs World WorldProofs IndexMap IndexMapProofs PostOffice PostOfficeProofs RoundTrip SortProofs Distribute DistributeSpec.
Open Scope nat_scope.

(** ** Plan *)
Definition hd0 (di : list nat) : nat := hd 0 di.
Definition D (ds : list (list nat)) : list (nat * (nat * nat)) :=
  concat (map (fun i => map (fun d => (d, (i, hd0 (nth i ds [])))) (nth i ds [])) (seq 0 (length ds))).
Definition to_rank (r : nat) (ds : list (list nat)) : list nat := filter (fun i => mem r (nth i ds [])) (seq 0 (length ds)).

Lemma dest_list_ok ds : (forall di, In di ds -> di <> []) -> dest_list ds = Some (D ds).
Proof.
  intro H. unfold dest_list. rewrite (omap_map _ (fun i => map (fun d => (d, (i, hd0 (nth i ds [])))) (nth i ds []))); [reflexivity|].
  intros i Hi. apply in_seq in Hi. assert (E : nth_error ds i = Some (nth i ds [])) by (apply nth_error_nth'; lia). rewrite E. cbn [obind].
  pose proof (H _ (nth_error_In _ _ E)) as N. destruct (nth i ds []) as [|d di]; [congruence|]. reflexivity.
Qed.
Lemma vals_const r (i h : nat) di : NoDup di -> vals r (map (fun d => (d, (i, h))) di) = if mem r di then [(i, h)] else [].
Proof.
  induction 1 as [|d di Hd Hn IH]; [reflexivity|]. cbn [map]. change ((d, (i, h)) :: map (fun d0 => (d0, (i, h))) di) with ([(d, (i, h))] ++ map (fun d0 => (d0, (i, h))) di).
  rewrite vals_app, vals_one, IH. cbn [fst snd]. unfold mem in *. cbn [existsb]. rewrite (Nat.eqb_sym r d). destruct (Nat.eqb_spec d r) as [E|N]; cbn [orb]; [|reflexivity].
  subst d. destruct (existsb (Nat.eqb r) di) eqn:Em; [|reflexivity]. apply mem_iff in Em. contradiction.
Qed.
Lemma vals_D r ds : (forall di, In di ds -> NoDup di) -> vals r (D ds) = map (fun i => (i, hd0 (nth i ds []))) (to_rank r ds).
Proof.
  intro H. unfold D, to_rank. rewrite vals_concat, map_map.
  assert (G : forall l, (forall i, In i l -> i < length ds) -> concat (map (fun i => vals r (map (fun d => (d, (i, hd0 (nth i ds [])))) (nth i ds []))) l) =
     map (fun i => (i, hd0 (nth i ds []))) (filter (fun i => mem r (nth i ds [])) l)).
  { induction l as [|i l IH]; intro Hl; [reflexivity|]. cbn [map concat filter]. rewrite IH by (intros; apply Hl; now right).
    rewrite vals_const by (apply H, nth_In, Hl; now left). destruct (mem r (nth i ds [])); reflexivity. }
  apply G. intros i Hi. apply in_seq in Hi. lia.
Qed.
Lemma D_fst ds d : In d (map fst (D ds)) -> exists di, In di ds /\ In d di.
Proof.
  intro H. apply in_map_iff in H as ((d', x) & E & H). cbn in E. subst d'. unfold D in H. apply in_concat in H as (l & Hl & H). apply in_map_iff in Hl as (i & <- & Hi).
  apply in_seq in Hi. apply in_map_iff in H as (d' & E & Hd). injection E as -> _. exists (nth i ds []). split; [apply nth_In; lia|exact Hd].
Qed.
Lemma D_item ds d i h : In (d, (i, h)) (D ds) -> i < length ds /\ h = hd0 (nth i ds []).
Proof.
  intro H. unfold D in H. apply in_concat in H as (l & Hl & H). apply in_map_iff in Hl as (j & <- & Hj). apply in_seq in Hj.
  apply in_map_iff in H as (d' & E & _). injection E as _ <- <-. split; [lia|reflexivity].
Qed.
Lemma map_snd_grp {V} (b : nat -> list V) ks : map snd (concat (map (grp b) ks)) = concat (map b ks).
Proof. rewrite concat_map, map_map. f_equal. apply map_ext. intro k. unfold grp. rewrite map_map. cbn. apply map_id. Qed.

Section World.
Variables (P : nat) (nbx : (nat -> list nat) -> nat -> list nat) (ds : nat -> list (list nat)).
Variables (encode : nat -> nat * nat -> option (list Z)) (enc : nat -> nat * nat -> list Z).
Hypothesis Hnbx : nbx_oracle P nbx.
Hypothesis Hds : destinations_ok P ds.
Hypothesis Henc : forall q i, q < P -> i < length (ds q) -> encode q (i, hd0 (nth i (ds q) [])) = Some (enc q (i, hd0 (nth i (ds q) []))).

Definition dd (q : nat) : list nat := sort_uniq (map fst (D (ds q))).
Lemma plan_ok q : q < P -> dist_plan (ds q) = Some (dd q, (map (fun d => length (vals d (D (ds q)))) (dd q), concat (map (fun d => vals d (D (ds q))) (dd q)))).
Proof.
  intro Hq. unfold dist_plan. rewrite dest_list_ok by (intros di H; apply (Hds q di Hq H)). cbn [obind].
  destruct (key_runs_spec (D (ds q))) as (E & E'). rewrite E'. cbn [obind]. rewrite E, map_snd_grp, !map_map. cbn [fst snd]. rewrite map_id. reflexivity.
Qed.
Lemma dest_ok q : q < P -> dist_dest ds q = dd q.
Proof. intro Hq. unfold dist_dest. now rewrite plan_ok. Qed.
Lemma dd_lt q d : q < P -> In d (dd q) -> d < P.
Proof. intros Hq H. apply (proj1 (sort_uniq_in _ _)) in H. apply D_fst in H as (di & H & Hd). exact (proj2 (proj2 (Hds q di Hq H)) d Hd). Qed.

Definition B (q d : nat) : list (list Z) := map (enc q) (vals d (D (ds q))).
Lemma send_ok q : q < P -> dist_send ds encode q = Some (concat (map (B q) (dd q)), (map (fun d => length (B q d)) (dd q), psums (map (fun d => length (B q d)) (dd q)))).
Proof.
  intro Hq. unfold dist_send. rewrite plan_ok by exact Hq. cbn [obind]. rewrite (omap_map _ (enc q)).
  - cbn [obind]. rewrite concat_map, map_map. unfold B.
    replace (map (fun d => length (map (enc q) (vals d (D (ds q))))) (dd q)) with (map (fun d => length (vals d (D (ds q)))) (dd q)) by (apply map_ext; intro; now rewrite map_length). reflexivity.
  - intros (i, h) H. apply in_concat in H as (l & Hl & H). apply in_map_iff in Hl as (d & <- & _). apply vals_in, D_item in H as (Hi & ->). now apply Henc.
Qed.
Lemma src_ok r : r < P -> dist_src nbx ds r = filter (fun s => mem r (dd s)) (seq 0 P).
Proof.
  intro Hr. unfold dist_src. rewrite (oracle_sorted P nbx (dist_dest ds) r Hnbx Hr).
  - apply filter_ext_in. intros s Hs. apply in_seq in Hs. now rewrite dest_ok by lia.
  - intros s Hs. rewrite dest_ok by exact Hs. apply sort_uniq_NoDup.
Qed.
Lemma graph : graph_ok P (dist_src nbx ds) (dist_dest ds).
Proof.
  intros r Hr. split; [rewrite dest_ok by exact Hr; apply sort_uniq_NoDup|]. split; [rewrite src_ok by exact Hr; apply NoDup_filter, seq_NoDup|].
  split; intro d.
  - rewrite dest_ok by exact Hr. split.
    + intro H. pose proof (dd_lt r d Hr H) as Hd. split; [exact Hd|]. rewrite src_ok by exact Hd. apply filter_In. rewrite in_seq, mem_iff. split; [lia|exact H].
    + intros (Hd & H). rewrite src_ok in H by exact Hd. apply filter_In in H as (_ & H). now apply mem_iff in H.
  - rewrite src_ok by exact Hr. rewrite filter_In, in_seq, mem_iff. split.
    + intros (H1 & H2). split; [lia|]. now rewrite dest_ok by lia.
    + intros (H1 & H2). rewrite dest_ok in H2 by exact H1. split; [lia|exact H2].
Qed.

(** The nodes received by rank [r] *)
Definition nodes (r : nat) : list (nat * nat) := concat (map (fun s => map (pair s) (to_rank r (ds s))) (seq 0 P)).
Definition owner (n : nat * nat) : nat := hd0 (nth (snd n) (ds (fst n)) []).
Definition msg (n : nat * nat) : list Z := enc (fst n) (snd n, owner n).

Lemma B_nodes s r : s < P -> B s r = map (fun i => msg (s, i)) (to_rank r (ds s)).
Proof. intro Hs. unfold B. rewrite vals_D by (intros di H; apply (Hds s di Hs H)). rewrite map_map. reflexivity. Qed.
Lemma to_rank_nil s r : s < P -> ~ In r (dd s) -> to_rank r (ds s) = [].
Proof.
  intros Hs H. destruct (to_rank r (ds s)) as [|i l] eqn:E; [reflexivity|]. exfalso. apply H. apply sort_uniq_in.
  assert (Hi : In (i, hd0 (nth i (ds s) [])) (vals r (D (ds s)))).
  { rewrite vals_D by (intros di Hd; apply (Hds s di Hs Hd)). rewrite E. now left. }
  apply (proj1 (vals_in r (D (ds s)) _)) in Hi. apply in_map_iff. eexists. split; [|exact Hi]. reflexivity.
Qed.

Lemma recv_ok r : r < P -> dist_recv P nbx ds encode r = Some (map (fun n => (fst n, msg n)) (nodes r)).
Proof.
  intro Hr. unfold dist_recv. rewrite (send_ok r Hr). cbn [obind]. rewrite (exchange_spec P _ _ _ B r graph Hr).
  2:{ intros s Hs. apply (graph r Hr) in Hs as (Hs & _). rewrite dest_ok by exact Hs. now apply send_ok. }
  cbn [obind]. rewrite map_length. set (S := dist_src nbx ds r).
  rewrite (omap_map _ (fun p => map (pair (nth p S 0)) (B (nth p S 0) r))).
  - cbn [obind]. f_equal.
    rewrite (map_seq_nth (fun p => map (pair (nth p S 0)) (B (nth p S 0) r)) (fun s => map (pair s) (B s r)) S) by (intros k s Hk; now rewrite (nth_error_nth _ _ 0 Hk)).
    unfold S. rewrite src_ok by exact Hr. unfold nodes. rewrite concat_map, map_map.
    assert (G : forall l, (forall s, In s l -> s < P) -> concat (map (fun s => map (pair s) (B s r)) (filter (fun s => mem r (dd s)) l)) =
        concat (map (fun s => map (fun n => (fst n, msg n)) (map (pair s) (to_rank r (ds s)))) l)).
    { induction l as [|s l IH]; intro Hl; [reflexivity|]. cbn [filter map concat]. rewrite <- IH by (intros; apply Hl; now right). pose proof (Hl s (or_introl eq_refl)) as Hs.
      destruct (mem r (dd s)) eqn:Em.
      - cbn [map concat]. f_equal. rewrite B_nodes by exact Hs. rewrite !map_map. reflexivity.
      - rewrite to_rank_nil; [reflexivity|exact Hs|]. intro H. apply mem_iff in H. congruence. }
    apply G. intros s Hs. apply in_seq in Hs. lia.
  - intros p Hp. apply in_seq in Hp. assert (Ep : nth_error S p = Some (nth p S 0)) by (apply nth_error_nth'; lia). rewrite Ep. cbn [obind].
    replace (map (fun s => length (B s r)) S) with (map (@length (list Z)) (map (fun s => B s r) S)) by (rewrite map_map; reflexivity).
    rewrite (slice_at_concat (map (fun s => B s r) S) p (B (nth p S 0) r)) by (now rewrite nth_error_map_some, Ep). reflexivity.
Qed.

Lemma nodes_in r s i : In (s, i) (nodes r) <-> s < P /\ exists di, nth_error (ds s) i = Some di /\ In r di.
Proof.
  clear - P ds.
  unfold nodes. rewrite in_concat. split.
  - intros (l & Hl & H). apply in_map_iff in Hl as (s' & <- & Hs). apply in_seq in Hs. apply in_map_iff in H as (i' & E & H). injection E as -> ->.
    apply filter_In in H as (Hi & H). apply in_seq in Hi. apply mem_iff in H. split; [lia|]. exists (nth i (ds s) []). split; [apply nth_error_nth'; lia|exact H].
  - intros (Hs & di & E & H). eexists. split; [apply (in_map (fun s => map (pair s) (to_rank r (ds s)))), in_seq; split; [lia|exact Hs]|]. cbv beta. apply in_map.
    apply filter_In. split; [apply in_seq; apply nth_error_bound in E; lia|]. apply mem_iff. now rewrite (nth_error_nth _ _ [] E).
Qed.
Lemma nodes_sorted r : StronglySorted node_order (nodes r).
Proof.
  clear - P ds.
  unfold nodes. generalize (SS_lt_seq 0 P). generalize (seq 0 P). clear. intros l H. induction H as [|s l Hs IH Hf]; [constructor|]. cbn [map concat]. apply SS_app; [|exact IH|].
  - apply SS_map. eapply SS_impl_in; [|apply SS_filter, SS_lt_seq]. cbv beta. intros a b _ _ H. right. split; [reflexivity|exact H].
  - intros a b Ha Hb. apply in_map_iff in Ha as (i & <- & _). apply in_concat in Hb as (l' & Hl & Hb). apply in_map_iff in Hl as (s' & <- & Hs'). apply in_map_iff in Hb as (j & <- & _).
    left. rewrite Forall_forall in Hf. exact (Hf s' Hs').
Qed.
Definition is_own (r : nat) (n : nat * nat) : bool := owner n =? r.
Lemma own_ok r : owned_nodes P ds r (filter (is_own r) (nodes r)).
Proof.
  clear - P ds.
  split; [apply SS_filter, nodes_sorted|]. intros s i. rewrite filter_In, nodes_in. unfold is_own, owner. cbn [fst snd]. split.
  - intros ((Hs & di & E & H) & Eo). split; [exact Hs|]. exists di. split; [exact E|]. apply Nat.eqb_eq in Eo. rewrite (nth_error_nth _ _ [] E) in Eo. destruct di; [destruct H|]. cbn in *. congruence.
  - intros (Hs & di & E & Eo). rewrite (nth_error_nth _ _ [] E). destruct di as [|d di]; [discriminate|]. cbn in Eo. injection Eo as ->. split; [|apply Nat.eqb_refl].
    split; [exact Hs|]. exists (r :: di). split; [exact E|now left].
Qed.
Lemma ghost_ok r : ghost_nodes P ds r (filter (fun n => negb (is_own r n)) (nodes r)).
Proof.
  clear - P ds.
  split; [apply SS_filter, nodes_sorted|]. intros s i. rewrite filter_In, nodes_in. unfold is_own, owner. cbn [fst snd]. split.
  - intros ((Hs & di & E & H) & Eo). split; [exact Hs|]. exists di. split; [exact E|]. split; [exact H|]. rewrite (nth_error_nth _ _ [] E) in Eo. destruct di as [|d di]; [destruct H|].
    cbn in *. intro Hh. injection Hh as ->. rewrite Nat.eqb_refl in Eo. discriminate.
  - intros (Hs & di & E & H & Eo). rewrite (nth_error_nth _ _ [] E). split; [split; [exact Hs|now exists di]|]. destruct di as [|d di]; [destruct H|]. cbn in *.
    destruct (Nat.eqb_spec d r); [congruence|reflexivity].
Qed.
End World.

(** ** Unpacking *)
Section Unpack.
Variables (N : Type) (src : N -> nat) (e : N -> list Z) (ne g : N -> Z).
Definition pushes (l : list N) (p : part) : part := fold_left (fun p n => push p (src n) (e n) (ne n) (g n)) l p.
Lemma pushes_data l p : pt_data (pushes l p) = pt_data p ++ concat (map e l).
Proof. revert p. induction l as [|n l IH]; intro p; cbn; [now rewrite app_nil_r|]. unfold pushes in IH. rewrite IH. cbn. now rewrite app_assoc. Qed.
Lemma pushes_src l p : pt_src (pushes l p) = pt_src p ++ map src l.
Proof. revert p. induction l as [|n l IH]; intro p; cbn; [now rewrite app_nil_r|]. unfold pushes in IH. rewrite IH. cbn. now rewrite <- app_assoc. Qed.
Lemma pushes_global l p : pt_global (pushes l p) = pt_global p ++ map g l.
Proof. revert p. induction l as [|n l IH]; intro p; cbn; [now rewrite app_nil_r|]. unfold pushes in IH. rewrite IH. cbn. now rewrite <- app_assoc. Qed.
Lemma pushes_offsets l : (forall n, In n l -> ne n = Z.of_nat (length (e n))) -> forall p l0 a, pt_offsets p = l0 ++ [Z.of_nat a] ->
  pt_offsets (pushes l p) = l0 ++ map Z.of_nat (psums_from a (map (fun n => length (e n)) l)).
Proof.
  induction l as [|n l IH]; intros Hn p l0 a E; cbn [pushes fold_left map psums_from]; [exact E|]. unfold pushes in IH.
  rewrite (IH (fun n H => Hn n (or_intror H)) _ (l0 ++ [Z.of_nat a]) (a + length (e n))).
  - rewrite <- app_assoc. reflexivity.
  - cbn [push pt_offsets]. rewrite E, last_last, (Hn n (or_introl eq_refl)). do 2 f_equal. lia.
Qed.
Variable own : N -> bool.
Variable o : N -> Z.
Lemma unpack_ok (step : part * part * list Z -> nat * list Z -> option (part * part * list Z)) (msg : N -> list Z) l :
  (forall n a b c, In n l -> step (a, b, c) (src n, msg n) = Some (if own n then (push a (src n) (e n) (ne n) (g n), b, c) else (a, push b (src n) (e n) (ne n) (g n), c ++ [o n]))) ->
  forall a b c, ofold step (map (fun n => (src n, msg n)) l) (a, b, c) =
    Some (pushes (filter own l) a, pushes (filter (fun n => negb (own n)) l) b, c ++ map o (filter (fun n => negb (own n)) l)).
Proof.
  induction l as [|n l IH]; intros H a b c; cbn [map ofold]; [cbn; now rewrite app_nil_r|].
  rewrite (H n a b c (or_introl eq_refl)). cbn [obind filter]. destruct (own n); cbn [negb filter map]; rewrite IH by (intros; apply H; now right); [reflexivity|].
  now rewrite <- app_assoc.
Qed.
End Unpack.

Lemma psums_from_app a l m : psums_from a (l ++ m) = psums_from a l ++ tl (psums_from (a + lsum l) m).
Proof.
  revert a. induction l as [|x l IH]; intro a.
  - cbn [app psums_from]. rewrite Nat.add_0_r. destruct m; reflexivity.
  - cbn [app psums_from]. rewrite IH. cbn [app]. rewrite lsum_cons. now rewrite Nat.add_assoc.
Qed.
Lemma psums_from_shift a c m : map (fun x => x + c) (psums_from a m) = psums_from (a + c) m.
Proof. revert a. induction m as [|x m IH]; intro a; cbn [psums_from map]; [reflexivity|]. rewrite IH. do 2 f_equal. lia. Qed.

(** ** Adjacency lists *)
Section Adj.
Variables (P : nat) (nbx : (nat -> list nat) -> nat -> list nat) (ls : nat -> list (list Z)) (ds : nat -> list (list nat)).
Hypothesis Hnbx : nbx_oracle P nbx.
Hypothesis Hds : destinations_ok P ds.
Hypothesis Hlen : forall q, q < P -> length (ls q) = length (ds q).
Hypothesis Hdeg : forall q row, q < P -> In row (ls q) -> length row <= shape1 P ls.

Definition row_of (n : nat * nat) : list Z := nth (snd n) (ls (fst n)) [].
Definition enc_row (q : nat) (it : nat * nat) : list Z :=
  let row := nth (fst it) (ls q) [] in
  firstn (shape1 P ls) (row ++ repeat (-1)%Z (shape1 P ls + 3 - length row)) ++ [Z.of_nat (length row); Z.of_nat (snd it); Z.of_nat (fst it + offset_global ls q)].

Lemma enc_row_ok q i : q < P -> i < length (ds q) -> encode_row P ls q (i, hd0 (nth i (ds q) [])) = Some (enc_row q (i, hd0 (nth i (ds q) []))).
Proof.
  intros Hq Hi. unfold encode_row. rewrite <- (Hlen q Hq) in Hi. rewrite (nth_error_nth' _ [] Hi). cbn [obind].
  pose proof (Hdeg q _ Hq (nth_In _ [] Hi)) as Hd. destruct (Nat.leb_spec (length (nth i (ls q) [])) (shape1 P ls + 3)) as [_|H]; [|lia]. reflexivity.
Qed.
Lemma nodes_row r n : In n (nodes P ds r) -> In (row_of n) (ls (fst n)) /\ fst n < P /\ nth_error (ls (fst n)) (snd n) = Some (row_of n).
Proof.
  destruct n as (s, i). intro H. apply nodes_in in H as (Hs & di & E & _). cbn [fst snd]. pose proof (nth_error_bound _ _ _ E) as Hi. rewrite <- (Hlen s Hs) in Hi.
  unfold row_of. cbn [fst snd]. split; [now apply nth_In|]. split; [exact Hs|now apply nth_error_nth'].
Qed.

Lemma distribute_ok r : r < P -> exists own gh rows owners,
  owned_nodes P ds r own /\ ghost_nodes P ds r gh /\
  Forall2 (fun n row => nth_error (ls (fst n)) (snd n) = Some row) (own ++ gh) rows /\
  Forall2 (fun n o => exists d, hd_error (nth (snd n) (ds (fst n)) []) = Some d /\ o = Z.of_nat d) gh owners /\
  distribute P nbx ls ds r =
    Some ((concat rows, map Z.of_nat (psums (map (@length Z) rows))),
          (map fst (own ++ gh), (map (node_number (fun s => length (ls s))) (own ++ gh), owners))).
Proof.
  intro Hr. set (own := filter (is_own ds r) (nodes P ds r)). set (gh := filter (fun n => negb (is_own ds r n)) (nodes P ds r)).
  exists own, gh, (map row_of (own ++ gh)), (map (fun n => Z.of_nat (owner ds n)) gh).
  assert (Hin : forall n, In n (own ++ gh) -> In n (nodes P ds r)) by (intros n H; apply in_app_iff in H as [H|H]; apply filter_In in H; tauto).
  split; [apply own_ok|]. split; [apply ghost_ok|]. split; [|split].
  - revert Hin. generalize (own ++ gh). intro l. induction l as [|n l IH]; intro H; cbn [map]; constructor; [apply (nodes_row r), H; now left|apply IH; intros; apply H; now right].
  - assert (Hg : forall n, In n gh -> exists d, hd_error (nth (snd n) (ds (fst n)) []) = Some d /\ Z.of_nat (owner ds n) = Z.of_nat d).
    { intros n H. apply filter_In in H as (H & _). destruct n as (s, i). apply nodes_in in H as (_ & di & E & H). unfold owner. cbn [fst snd]. rewrite (nth_error_nth _ _ [] E). destruct di as [|d di]; [destruct H|]. now exists d. }
    revert Hg. generalize gh. intro l. induction l as [|n l IH]; intro H; cbn [map]; constructor; [apply H; now left|apply IH; intros; apply H; now right].
  - unfold distribute. rewrite (Hlen r Hr), Nat.eqb_refl. rewrite (recv_ok P nbx ds _ enc_row Hnbx Hds enc_row_ok r Hr). cbn [obind].
    rewrite (unpack_ok (nat * nat) fst row_of (fun n => Z.of_nat (length (row_of n))) (node_number (fun s => length (ls s))) (is_own ds r) (fun n => Z.of_nat (owner ds n))).
    + cbn [obind]. fold own. fold gh. rewrite !pushes_data, !pushes_src, !pushes_global. cbn [empty_part pt_data pt_src pt_global app].
      rewrite !(pushes_offsets _ fst row_of _ _ _ (fun n _ => eq_refl) empty_part [] 0 eq_refl). cbn [app].
      rewrite !map_app, concat_app. do 2 f_equal. f_equal. unfold psums. rewrite psums_from_app, map_app, !map_map. f_equal. 
      cbn [plus]. rewrite <- (psums_from_shift 0 (lsum (map (fun n => length (row_of n)) own))). 
      assert (El : last (map Z.of_nat (psums_from 0 (map (fun n => length (row_of n)) own))) 0%Z = Z.of_nat (lsum (map (fun n => length (row_of n)) own))).
      { set (X := lsum _). change X with (0 + X). unfold X. rewrite <- (last_psums_from 0 (map (fun n => length (row_of n)) own)). generalize (psums_from 0 (map (fun n => length (row_of n)) own)). intro l.
        induction l as [|x [|y l] IH]; [reflexivity|reflexivity|]. exact IH. }
      rewrite El. generalize (psums_from 0 (map (fun n => length (row_of n)) gh)). intros [|x l]; [reflexivity|]. cbn [map tl]. rewrite !map_map. apply map_ext. intro y. lia.
    + intros n a b c Hn. destruct (nodes_row r n Hn) as (Hrow & Hs & _). pose proof (Hdeg _ _ Hs Hrow) as Hd. unfold unpack_row, msg, enc_row. cbn [fst snd]. fold (row_of n).
      set (w := shape1 P ls) in *. set (row := row_of n) in *.
      assert (L : length (firstn w (row ++ repeat (-1)%Z (w + 3 - length row))) = w) by (rewrite firstn_length, app_length, repeat_length; lia).
      assert (A0 : forall k x y z, nth_error (firstn w (row ++ repeat (-1)%Z (w + 3 - length row)) ++ [x; y; z]) (w + k) = nth_error [x; y; z] k).
      { intros k x y z. rewrite nth_error_app2 by lia. f_equal. lia. }
      pose proof (A0 0) as A1. rewrite Nat.add_0_r in A1. rewrite A1, !A0. cbn [nth_error obind]. rewrite app_length, L. cbn [length].
      destruct (Z.leb_spec 0 (Z.of_nat (length row))) as [_|]; [|lia]. destruct (Z.leb_spec (Z.of_nat (length row)) (Z.of_nat (w + 3))) as [_|]; [|lia]. cbn [andb].
      rewrite Nat2Z.id. rewrite firstn_app, firstn_firstn, L. replace (Nat.min (length row) w) with (length row) by lia. replace (length row - w) with 0 by lia. cbn [firstn]. rewrite app_nil_r.
      rewrite firstn_app, Nat.sub_diag, firstn_all. cbn [firstn]. rewrite app_nil_r.
      replace (Z.of_nat (snd n + offset_global ls (fst n))) with (node_number (fun s => length (ls s)) n) by (unfold node_number, offset_global; lia).
      unfold is_own. destruct (Z.eqb_spec (Z.of_nat (owner ds n)) (Z.of_nat r)) as [E|E]; destruct (Nat.eqb_spec (owner ds n) r) as [F|F]; try lia; reflexivity.
Qed.
End Adj.

(** ** Rows of fixed size *)
Section Fixed.
Variables (P : nat) (nbx : (nat -> list nat) -> nat -> list nat) (ls : nat -> list Z) (width : nat -> nat) (w : nat) (ds : nat -> list (list nat)).
Hypothesis Hnbx : nbx_oracle P nbx.
Hypothesis Hds : destinations_ok P ds.
Hypothesis Hw : forall q, q < P -> width q = w.
Hypothesis Hlen : forall q, q < P -> length (ls q) = length (ds q) * w.

Definition row_at (n : nat * nat) : list Z := firstn w (skipn (snd n * w) (ls (fst n))).
Definition enc_at (q : nat) (it : nat * nat) : list Z := row_at (q, fst it) ++ [Z.of_nat (snd it); Z.of_nat (fst it + offset_fixed ds q)].
Lemma row_slice q i : q < P -> i < length (ds q) -> slice (ls q) (i * w) (i * w + w) = Some (row_at (q, i)) /\ length (row_at (q, i)) = w.
Proof.
  intros Hq Hi. assert (Hb : i * w + w <= length (ls q)) by (rewrite (Hlen q Hq); transitivity (S i * w); [cbn; lia|apply Nat.mul_le_mono_r; lia]).
  unfold row_at. cbn [fst snd]. split; [|rewrite firstn_length, skipn_length; lia]. unfold slice.
  destruct (Nat.leb_spec (i * w) (i * w + w)); [|lia]. destruct (Nat.leb_spec (i * w + w) (length (ls q))); [|lia]. cbn [andb]. do 2 f_equal. lia.
Qed.
Lemma enc_at_ok q i : q < P -> i < length (ds q) -> encode_fixed ls width ds q (i, hd0 (nth i (ds q) [])) = Some (enc_at q (i, hd0 (nth i (ds q) []))).
Proof. intros Hq Hi. unfold encode_fixed. rewrite (Hw q Hq), (proj1 (row_slice q i Hq Hi)). reflexivity. Qed.
Lemma nodes_at r n : In n (nodes P ds r) -> fst n < P /\ snd n < length (ds (fst n)).
Proof. destruct n as (s, i). intro H. apply nodes_in in H as (Hs & di & E & _). split; [exact Hs|]. exact (nth_error_bound _ _ _ E). Qed.

Lemma distribute_fixed_ok r : r < P -> exists own gh rows owners,
  owned_nodes P ds r own /\ ghost_nodes P ds r gh /\
  Forall2 (fun n row => slice (ls (fst n)) (snd n * w) (snd n * w + w) = Some row) (own ++ gh) rows /\
  Forall2 (fun n o => exists d, hd_error (nth (snd n) (ds (fst n)) []) = Some d /\ o = Z.of_nat d) gh owners /\
  distribute_fixed P nbx ls width ds r =
    Some (concat rows, (map fst (own ++ gh), (map (node_number (fun s => length (ds s))) (own ++ gh), owners))).
Proof.
  intro Hr. set (own := filter (is_own ds r) (nodes P ds r)). set (gh := filter (fun n => negb (is_own ds r n)) (nodes P ds r)).
  exists own, gh, (map row_at (own ++ gh)), (map (fun n => Z.of_nat (owner ds n)) gh).
  assert (Hin : forall n, In n (own ++ gh) -> In n (nodes P ds r)) by (intros n H; apply in_app_iff in H as [H|H]; apply filter_In in H; tauto).
  split; [apply own_ok|]. split; [apply ghost_ok|]. split; [|split].
  - revert Hin. generalize (own ++ gh). intro l. induction l as [|n l IH]; intro H; cbn [map]; constructor; [|apply IH; intros; apply H; now right].
    destruct (nodes_at r n (H n (or_introl eq_refl))) as (H1 & H2). destruct n as (s, i). now apply row_slice.
  - assert (Hg : forall n, In n gh -> exists d, hd_error (nth (snd n) (ds (fst n)) []) = Some d /\ Z.of_nat (owner ds n) = Z.of_nat d).
    { intros n H. apply filter_In in H as (H & _). destruct n as (s, i). apply nodes_in in H as (_ & di & E & H). unfold owner. cbn [fst snd]. rewrite (nth_error_nth _ _ [] E). destruct di as [|d di]; [destruct H|]. now exists d. }
    revert Hg. generalize gh. intro l. induction l as [|n l IH]; intro H; cbn [map]; constructor; [apply H; now left|apply IH; intros; apply H; now right].
  - unfold distribute_fixed. rewrite (Hlen r Hr), (Hw r Hr), Nat.eqb_refl. rewrite (recv_ok P nbx ds _ enc_at Hnbx Hds enc_at_ok r Hr). cbn [obind].
    rewrite (unpack_ok (nat * nat) fst row_at (fun n => 0%Z) (node_number (fun s => length (ds s))) (is_own ds r) (fun n => Z.of_nat (owner ds n))).
    + cbn [obind]. fold own. fold gh. rewrite !pushes_data, !pushes_src, !pushes_global. cbn [empty_part pt_data pt_src pt_global app].
      rewrite !map_app, concat_app. reflexivity.
    + intros n a b c Hn. destruct (nodes_at r n Hn) as (Hs & Hi). destruct n as (s, i). cbn [fst snd] in *. destruct (row_slice s i Hs Hi) as (_ & L).
      unfold unpack_fixed, msg, enc_at. cbn [fst snd]. rewrite (Hw r Hr). rewrite app_length, L. cbn [length]. rewrite Nat.eqb_refl.
      rewrite nth_error_app2 by lia. rewrite L, Nat.sub_diag. rewrite nth_error_app2 by lia. rewrite L. replace (w + 1 - w) with 1 by lia. cbn [nth_error obind].
      rewrite firstn_app, L, Nat.sub_diag. cbn [firstn]. rewrite app_nil_r, firstn_all2 by lia.
      replace (Z.of_nat (i + offset_fixed ds s)) with (node_number (fun s => length (ds s)) (s, i)) by (unfold node_number, offset_fixed; cbn [fst snd]; lia).
      unfold is_own. destruct (Z.eqb_spec (Z.of_nat (owner ds (s, i))) (Z.of_nat r)) as [E|E]; destruct (Nat.eqb_spec (owner ds (s, i)) r) as [F|F]; try lia; reflexivity.
Qed.
End Fixed.

Lemma shape1_ge P (ls : nat -> list (list Z)) (row : list Z) : (exists s first rest, s < P /\ ls s = first :: rest /\ length row <= length first) -> length row <= shape1 P ls.
Proof.
  intros (s & first & rest & Hs & E & H). eapply Nat.le_trans; [exact H|]. unfold shape1, allreduce_max.
  assert (G : forall l x, In x l -> x <= fold_right Nat.max 0 l) by (induction l as [|y l IH]; [intros x []|]; cbn; intros x [->|K]; [lia|specialize (IH x K); lia]).
  apply G. apply in_map_iff. exists s. rewrite E. split; [reflexivity|apply in_seq; lia].
Qed.
Lemma distribute_statement P nbx ls ds :
  nbx_oracle P nbx -> destinations_ok P ds -> (forall q, q < P -> length (ls q) = length (ds q)) ->
  (forall q row, q < P -> In row (ls q) -> exists s first rest, s < P /\ ls s = first :: rest /\ length row <= length first) ->
  forall r, r < P -> exists own gh rows owners,
  owned_nodes P ds r own /\ ghost_nodes P ds r gh /\
  Forall2 (fun n row => nth_error (ls (fst n)) (snd n) = Some row) (own ++ gh) rows /\
  Forall2 (fun n o => exists d, hd_error (nth (snd n) (ds (fst n)) []) = Some d /\ o = Z.of_nat d) gh owners /\
  distribute P nbx ls ds r =
    Some ((concat rows, map Z.of_nat (psums (map (@length Z) rows))),
          (map fst (own ++ gh), (map (node_number (fun s => length (ls s))) (own ++ gh), owners))).
Proof. intros H1 H2 H3 H4. apply distribute_ok; auto. intros q row Hq H. apply shape1_ge. eauto. Qed.

Lemma no_destination P nbx ls ds r : r < P -> In [] (ds r) -> distribute P nbx ls ds r = None /\ forall ls' width, distribute_fixed P nbx ls' width ds r = None.
Proof.
  intros Hr H. assert (E : dest_list (ds r) = None).
  { unfold dest_list. apply In_nth_error in H as (i & Hi). pose proof (nth_error_bound _ _ _ Hi) as Hb.
    assert (G : forall l, In i l -> omap (fun i => di <- nth_error (ds r) i ;; d0 <- hd_error di ;; Some (map (fun d => (d, (i, d0))) di)) l = None).
    { induction l as [|j l IH]; [intros []|]. intros [->|K]; cbn [omap]; [rewrite Hi; reflexivity|]. destruct (nth_error (ds r) j) as [di|]; [|reflexivity]. cbn [obind]. destruct (hd_error di); [|reflexivity].
      cbn [obind]. now rewrite (IH K). }
    rewrite G; [reflexivity|]. apply in_seq. lia. }
  assert (F : forall enc, dist_recv P nbx ds enc r = None) by (intro enc; unfold dist_recv, dist_send, dist_plan; now rewrite E).
  split; [unfold distribute|intros ls' width; unfold distribute_fixed]; rewrite F; destruct (_ =? _); reflexivity.
Qed.
