(** Destinations of the nodes of a graph. *)
From Verif Require Import Base BaseProofs Algo AlgoProofs BucketProofs World WorldProofs IndexMap IndexMapProofs PostOffice PostOfficeProofs MatrixCSR MatrixProofs StackProofs CellTypes
  DualGraph DualGraphSpec DualGraphProofs DualMatch DestRanks DestRanksSpec.
Open Scope nat_scope.

(** ** Lists *)
Lemma prefix_len_at {A} (p : A -> bool) l k y : nth_error l k = Some y -> p y = false -> (forall i z, i < k -> nth_error l i = Some z -> p z = true) -> prefix_len p l = k.
Proof.
  revert k. induction l as [|a l IH]; intros [|k] E Hy H; try discriminate.
  - injection E as ->. cbn [prefix_len]. now rewrite Hy.
  - cbn [prefix_len]. rewrite (H 0 a) by (lia || reflexivity). f_equal. apply IH; [exact E|exact Hy|]. intros i z Hi Ei. apply (H (S i)); [lia|exact Ei].
Qed.
Lemma vals_pairs_NoDup {V} k (l : list (nat * V)) : NoDup l -> NoDup (vals k l).
Proof.
  unfold vals. induction 1 as [|(a, v) l Ha Hn IH]; [constructor|]. cbn [filter fst]. destruct (Nat.eqb_spec a k) as [->|N]; [|exact IH]. cbn [map snd]. constructor; [|exact IH].
  intro H. apply in_map_iff in H as ((b, w) & E & H). cbn [snd] in E. subst w. apply filter_In in H as (H & E). cbn [fst] in E. apply Nat.eqb_eq in E. subst b. contradiction.
Qed.
Lemma swap_ok d k p : nth_error d k = Some p -> exists d', swap_first d k = Some d' /\ hd_error d' = Some p /\ Permutation d d'.
Proof.
  intro E. unfold swap_first. destruct d as [|a t]; [destruct k; discriminate|]. change (nth_error (a :: t) 0) with (Some a). cbn [obind]. rewrite E. cbn [obind]. change (upd (a :: t) 0 p) with (Some (p :: t)). cbn [obind].
  destruct k as [|k]; [injection E as ->; exists (p :: t); auto|]. change (nth_error t k = Some p) in E. destruct (upd_some t k a (nth_error_bound _ _ _ E)) as (t' & Et).
  exists (p :: t'). split; [change (upd (p :: t) (S k) a) with (t'0 <- upd t k a ;; Some (p :: t'0)); now rewrite Et|]. split; [reflexivity|].
  apply upd_split in Et as (u & y & w & -> & Lu & ->). rewrite nth_error_app2 in E by lia. rewrite Lu, Nat.sub_diag in E. injection E as ->. change (a :: u ++ p :: w) with ((a :: u) ++ p :: w). change (p :: u ++ a :: w) with ((p :: u) ++ a :: w).
  rewrite <- (Permutation_middle (a :: u)), <- (Permutation_middle (p :: u)). apply perm_swap.
Qed.

Section Destinations.
Variables (P : nat) (nbx : (nat -> list nat) -> nat -> list nat).
Variables (set3 : nat -> list (nat * (nat * nat)) -> list (nat * (nat * nat))) (set2 : nat -> list (nat * nat) -> list (nat * nat)).
Variables (graph : nat -> list (list nat)) (node_disp : nat -> list nat) (part : nat -> list nat).
Hypothesis Hnbx : nbx_oracle P nbx.
Hypothesis (H3 : forall r, r < P -> lists_set (set3 r)) (H2 : forall r, r < P -> lists_set (set2 r)).
Hypothesis Hdisp : forall r, r < P -> node_disp r = psums (map (fun q => length (graph q)) (seq 0 P)).
Hypothesis Hpart : forall r, r < P -> length (part r) = length (graph r).
Notation first := (first_node graph).
Hypothesis Hlinks : forall r links g, r < P -> In links (graph r) -> In g links -> g < first P.
Notation n q := (length (graph q)).
Notation disp := (psums (map (fun q => length (graph q)) (seq 0 P))).

Lemma first_S r : first (S r) = first r + n r.
Proof. exact (exscan_S (fun q => n q) r). Qed.
Lemma first_mono a b : a <= b -> first a <= first b.
Proof. exact (exscan_mono (fun q => n q) a b). Qed.
Lemma disp_nth i : i <= P -> nth_error disp i = Some (first i).
Proof. intro H. rewrite psums_nth by (now rewrite map_length, seq_length). rewrite firstn_map. replace P with (i + (P - i)) by lia. rewrite seq_app, firstn_app, seq_length, Nat.sub_diag, firstn_O, app_nil_r. rewrite firstn_all2 by (rewrite seq_length; lia). reflexivity. Qed.

(** The rank of a node *)
Definition own (g : nat) : nat := pred (upper_bound disp g).
Lemma upper_at o y : o < P -> y < n o -> upper_bound disp (first o + y) = S o.
Proof.
  intros Ho Hy. apply (prefix_len_at _ _ _ (first (S o))); [now apply disp_nth|apply Nat.leb_gt; rewrite first_S; lia|].
  intros i z Hi Ez. rewrite disp_nth in Ez by lia. injection Ez as <-. apply Nat.leb_le. pose proof (first_mono i o ltac:(lia)). lia.
Qed.
Lemma own_at o y : o < P -> y < n o -> own (first o + y) = o.
Proof. intros Ho Hy. unfold own. now rewrite upper_at. Qed.
Lemma split_node g : g < first P -> exists o y, o < P /\ y < n o /\ g = first o + y.
Proof. exact (exscan_split (fun q => n q) P g). Qed.

Definition items (r : nat) : list (nat * (nat * nat)) :=
  concat (map (fun il => map (fun g => (own g, (g, nth (fst il) (part r) 0))) (snd il)) (enum (graph r))).
Lemma items_in r o g d : In (o, (g, d)) (items r) <-> exists i links, nth_error (graph r) i = Some links /\ In g links /\ o = own g /\ d = nth i (part r) 0.
Proof.
  unfold items. rewrite in_concat. split.
  - intros (l & Hl & H). apply in_map_iff in Hl as ((i, links) & <- & Hi). apply in_enum in Hi. cbn [fst snd] in H. apply in_map_iff in H as (g' & E & Hg). injection E as <- <- <-. exists i, links. auto.
  - intros (i & links & Ei & Hg & -> & ->). eexists. split; [apply in_map, in_enum, Ei|]. cbn [fst snd]. apply (in_map (fun g => (own g, (g, nth i (part r) 0)))), Hg.
Qed.
Lemma to_dest_ok r : r < P -> node_to_dest graph node_disp part r = Some (items r).
Proof.
  intro Hr. unfold node_to_dest. rewrite Hdisp by exact Hr. rewrite !disp_nth by lia. cbn [obind]. rewrite first_S. replace (first r + n r - first r) with (n r) by lia. rewrite Nat.eqb_refl. cbn [negb].
  rewrite (omap_map _ (fun il => map (fun g => (own g, (g, nth (fst il) (part r) 0))) (snd il))); [reflexivity|].
  intros (i, links) Hi. apply in_enum in Hi. cbn [fst snd]. apply omap_map. intros g Hg. rewrite (nth_error_nth' _ 0) by (rewrite Hpart by exact Hr; eapply nth_error_bound; eauto). cbn [obind].
  destruct (split_node g) as (o & y & Ho & Hy & ->); [eapply Hlinks; eauto; eapply nth_error_In; eauto|]. rewrite (own_at o y Ho Hy).
  destruct ((first o + y <? first r) || (first r + n r <=? first o + y)) eqn:Q; [now rewrite upper_at|].
  apply orb_false_iff in Q as (Q1 & Q2). apply Nat.ltb_ge in Q1. apply Nat.leb_gt in Q2.
  destruct (exscan_unique (fun q => n q) r o (first o + y - first r) y) as (-> & _); [cbv beta; lia|exact Hy|change (first r + (first o + y - first r) = first o + y); lia|reflexivity].
Qed.

Notation S3 r := (set3 r (items r)).
Lemma plan_ok r : r < P -> dr_plan set3 graph node_disp part r = Some (map (fun k => (k, vals k (S3 r))) (sort_uniq (map fst (S3 r)))).
Proof. intro Hr. unfold dr_plan. rewrite to_dest_ok by exact Hr. cbn [obind]. exact (proj2 (key_runs_spec (S3 r))). Qed.
Notation dest := (dr_dest set3 graph node_disp part).
Notation src := (dr_src nbx set3 graph node_disp part).
Lemma dest_ok r : r < P -> dest r = sort_uniq (map fst (S3 r)).
Proof. intro Hr. unfold dr_dest. rewrite plan_ok by exact Hr. rewrite map_map. cbn [fst]. apply map_id. Qed.
Lemma S3_in r x : r < P -> In x (S3 r) <-> In x (items r).
Proof. intro Hr. apply (H3 r Hr). Qed.
Lemma dest_in r d : r < P -> In d (dest r) <-> exists i links g, nth_error (graph r) i = Some links /\ In g links /\ d = own g.
Proof.
  intro Hr. rewrite dest_ok by exact Hr. rewrite sort_uniq_in, in_map_iff. split.
  - intros ((o, (g, x)) & <- & H). apply S3_in in H; [|exact Hr]. apply items_in in H as (i & links & A & B & C & _). exists i, links, g. auto.
  - intros (i & links & g & A & B & ->). exists (own g, (g, nth i (part r) 0)). split; [reflexivity|]. apply S3_in; [exact Hr|]. apply items_in. exists i, links. auto.
Qed.
Lemma dest_lt r d : r < P -> In d (dest r) -> d < P.
Proof.
  intros Hr H. apply dest_in in H as (i & links & g & A & B & ->); [|exact Hr]. destruct (split_node g) as (o & y & Ho & Hy & ->); [eapply Hlinks; eauto; eapply nth_error_In; eauto|]. now rewrite own_at.
Qed.
Lemma dr_graph : graph_ok P src dest.
Proof. apply (oracle_graph P nbx dest Hnbx); [intros q Hq; rewrite dest_ok by exact Hq; apply sort_uniq_NoDup|exact dest_lt]. Qed.
Lemma src_in r s : r < P -> In s (src r) <-> s < P /\ In r (dest s).
Proof. intro Hr. apply (oracle_in P nbx dest r s Hnbx Hr). Qed.

Hypothesis Hsym : forall g h, linked P graph g h -> linked P graph h g.
Lemma linked_at r i h : r < P -> i < n r -> linked P graph (first r + i) h -> exists links, nth_error (graph r) i = Some links /\ In h links.
Proof.
  intros Hr Hi (s & j & links & Hs & E & Ej & Hh). destruct (exscan_unique (fun q => n q) r s i j Hi (nth_error_bound _ _ _ Ej) E) as (<- & <-). eauto.
Qed.
Lemma enough_room r : r < P -> length (src r) <= length (dest r).
Proof.
  intro Hr. apply NoDup_incl_length; [apply (dr_graph r Hr)|]. intros s Hs. apply src_in in Hs as (Hs & H); [|exact Hr]. apply dest_in in H as (i & links & g & A & B & E); [|exact Hs].
  destruct (split_node g) as (o & y & Ho & Hy & ->); [eapply Hlinks; eauto; eapply nth_error_In; eauto|]. rewrite own_at in E by assumption. subst o.
  assert (K : linked P graph (first r + y) (first s + i)) by (apply Hsym; exists s, i, links; auto). apply linked_at in K as (links' & A' & B'); [|exact Hr|exact Hy].
  apply dest_in; [exact Hr|]. exists y, links', (first s + i). split; [exact A'|]. split; [exact B'|]. symmetry. apply own_at; [exact Hs|eapply nth_error_bound; eauto].
Qed.

Definition inbox (r : nat) : list (nat * nat) := concat (map (fun s => vals r (S3 s)) (src r)).
Lemma recv_ok r : r < P -> dr_recv P nbx set3 graph node_disp part r = Some (inbox r).
Proof.
  intro Hr. unfold dr_recv. pose proof (enough_room r Hr) as L. apply Nat.ltb_ge in L. rewrite L. rewrite (exchange_spec P src dest _ (fun s d => vals d (S3 s)) r dr_graph Hr); [reflexivity|].
  intros s Hs. apply src_in in Hs as (Hs & _); [|exact Hr]. unfold dr_send. rewrite plan_ok by exact Hs. cbn [obind]. rewrite !map_map. cbn [snd]. rewrite dest_ok by exact Hs. reflexivity.
Qed.
Lemma inbox_in r g d : r < P -> In (g, d) (inbox r) <-> exists s i links, s < P /\ nth_error (graph s) i = Some links /\ In g links /\ r = own g /\ d = nth i (part s) 0.
Proof.
  intro Hr. unfold inbox. rewrite in_concat. split.
  - intros (l & Hl & H). apply in_map_iff in Hl as (s & <- & Hs). apply src_in in Hs as (Hs & _); [|exact Hr]. apply (proj1 (vals_in _ _ _)) in H. apply S3_in in H; [|exact Hs]. apply items_in in H as (i & links & K). exists s, i, links. auto.
  - intros (s & i & links & Hs & A & B & C & D). exists (vals r (S3 s)). split.
    + apply (in_map (fun s => vals r (S3 s))). apply src_in; [exact Hr|]. split; [exact Hs|]. apply dest_in; [exact Hs|]. exists i, links, g. auto.
    + apply vals_in. apply S3_in; [exact Hs|]. apply items_in. exists i, links. auto.
Qed.
Lemma own_range r g : r < P -> g < first P -> r = own g -> first r <= g < first (S r).
Proof. intros Hr Hg ->. destruct (split_node g Hg) as (o & y & Ho & Hy & ->). rewrite own_at by assumption. rewrite first_S. lia. Qed.

Definition locals (r : nat) : list (nat * nat) := combine (seq 0 (length (part r))) (part r) ++ map (fun gd => (fst gd - first r, snd gd)) (inbox r).
Lemma inbox_lt r g d : r < P -> In (g, d) (inbox r) -> first r <= g < first (S r).
Proof. intros Hr H. apply inbox_in in H as (s & i & links & Hs & A & B & C & _); [|exact Hr]. apply own_range; [exact Hr| |exact C]. eapply Hlinks; eauto. eapply nth_error_In; eauto. Qed.
Lemma locals_ok r : r < P -> local_node_to_dest P nbx set3 graph node_disp part r = Some (locals r).
Proof.
  intro Hr. unfold local_node_to_dest. rewrite recv_ok by exact Hr. rewrite Hdisp by exact Hr. rewrite !disp_nth by lia. cbn [obind].
  rewrite (omap_map _ (fun gd => (fst gd - first r, snd gd))); [reflexivity|]. intros (g, d) H. apply inbox_lt in H; [|exact Hr]. cbn [fst snd].
  destruct (Nat.leb_spec (first r) g); [|lia]. destruct (Nat.ltb_spec g (first (S r))); [|lia]. reflexivity.
Qed.
Lemma locals_in r i d : r < P -> In (i, d) (locals r) <-> i < n r /\ (nth_error (part r) i = Some d \/ exists h, linked P graph (first r + i) h /\ goes_to P graph part h d).
Proof.
  intro Hr. unfold locals. rewrite in_app_iff. split.
  - intros [H|H].
    + apply (in_enum (part r) i d) in H. split; [rewrite <- Hpart by exact Hr; eapply nth_error_bound; eauto|now left].
    + apply in_map_iff in H as ((g, d') & E & H). cbn [fst snd] in E. injection E as <- <-. pose proof (inbox_lt r g d' Hr H) as L. rewrite first_S in L. split; [lia|]. right.
      apply inbox_in in H as (s & j & links & Hs & A & B & C & ->); [|exact Hr]. exists (first s + j). split.
      * apply Hsym. exists s, j, links. replace (first r + (g - first r)) with g by lia. auto.
      * exists s, j. pose proof (nth_error_bound _ _ _ A). split; [exact Hs|]. split; [lia|]. split; [reflexivity|]. apply nth_error_nth'. now rewrite Hpart.
  - intros (Hi & [H|(h & Hl & (s & j & Hs & Hj & -> & Ej))]).
    + left. now apply (in_enum (part r) i d).
    + right. apply in_map_iff. exists (first r + i, d). cbn [fst snd]. split; [f_equal; lia|]. apply inbox_in; [exact Hr|]. apply Hsym in Hl. apply linked_at in Hl as (links & A & B); [|exact Hs|exact Hj].
      exists s, j, links. split; [exact Hs|]. split; [exact A|]. split; [exact B|]. split; [symmetry; now apply own_at|]. symmetry. now apply nth_error_nth.
Qed.

Lemma destinations_ok r : r < P -> exists rows, destination_ranks P nbx set3 set2 graph node_disp part r = Some rows /\ length rows = n r /\
  forall i row p, nth_error rows i = Some row -> nth_error (part r) i = Some p ->
    hd_error row = Some p /\ NoDup row /\ forall d, In d row <-> d = p \/ exists h, linked P graph (first r + i) h /\ goes_to P graph part h d.
Proof.
  intro Hr. unfold destination_ranks. rewrite locals_ok by exact Hr. cbn [obind]. set (L := ksort (set2 r (locals r))).
  assert (Lin : forall i d, In (i, d) L <-> In (i, d) (locals r)) by (intros i d; unfold L, ksort; rewrite <- (proj2 (H2 r Hr (locals r))); split; apply Permutation_in; [apply Permutation_sym|]; apply isort_perm).
  assert (Lnd : NoDup L) by (eapply Permutation_NoDup; [apply isort_perm|apply (H2 r Hr)]).
  assert (LF : Forall (fun kv => fst kv < n r) L) by (apply Forall_forall; intros (i, d) H; apply Lin in H; apply locals_in in H as (Hi & _); [exact Hi|exact Hr]).
  rewrite (fill_links_ok _ _ LF). cbn [obind].
  assert (G : forall i, i < n r -> exists row p, nth_error (part r) i = Some p /\
     (d <- slice_at (concat (map (fun k => vals k L) (seq 0 (n r)))) (psums (map (fun k => length (vals k L)) (seq 0 (n r)))) i ;; p <- nth_error (part r) i ;; k <- index_in p d ;; swap_first d k) = Some row /\
     hd_error row = Some p /\ NoDup row /\ forall d, In d row <-> d = p \/ exists h, linked P graph (first r + i) h /\ goes_to P graph part h d).
  { intros i Hi. rewrite (links_slice _ L i Hi). cbn [obind]. destruct (nth_error_lt (part r) i) as (p & Ep); [now rewrite Hpart|]. rewrite Ep. cbn [obind].
    assert (Hp : In p (vals i L)) by (apply vals_in, Lin, locals_in; [exact Hr|]; auto). destruct (index_in_in p _ Hp) as (k & Ek). rewrite Ek. cbn [obind].
    destruct (swap_ok (vals i L) k p (index_in_some _ _ _ Ek)) as (row & Es & Eh & Pm). exists row, p. split; [reflexivity|]. split; [exact Es|]. split; [exact Eh|]. split; [eapply Permutation_NoDup; [exact Pm|now apply vals_pairs_NoDup]|].
    intro d. transitivity (In d (vals i L)); [split; apply Permutation_in; [now apply Permutation_sym|exact Pm]|]. rewrite vals_in, Lin, locals_in by exact Hr. rewrite Ep. split.
    - intros (_ & [K|K]); [left; now injection K as ->|now right].
    - intros [->|K]; split; auto. }
  set (f := fun i => d <- slice_at (concat (map (fun k => vals k L) (seq 0 (n r)))) (psums (map (fun k => length (vals k L)) (seq 0 (n r)))) i ;; p <- nth_error (part r) i ;; k <- index_in p d ;; swap_first d k) in *.
  destruct (omap_some f (seq 0 (n r))) as (rows & E).
  { intros i Hi. apply in_seq in Hi. destruct (G i) as (row & p & _ & E & _); [lia|]. eauto. }
  exists rows. split; [exact E|]. pose proof (omap_length _ _ _ E) as Lr. rewrite seq_length in Lr. split; [exact Lr|].
  intros i row p Ei Ep. pose proof (nth_error_bound _ _ _ Ei) as Hi. rewrite Lr in Hi. destruct (G i Hi) as (row' & p' & Ep' & E' & K). rewrite Ep in Ep'. injection Ep' as <-.
  destruct (omap_nth f (seq 0 (n r)) rows E i i) as (row'' & A & B); [now rewrite nth_error_seq|]. rewrite Ei in A. injection A as <-. unfold f in B. rewrite E' in B. injection B as <-. exact K.
Qed.
End Destinations.

(** ** The partition of the parent mesh *)
Lemma identity_owned m parents nc r : nc <= length parents -> (forall c, In c parents -> c < size_local m) -> identity_destinations m parents nc r = Some (repeat r nc).
Proof.
  intros L H. unfold identity_destinations. rewrite (omap_map _ (fun _ => r)).
  - f_equal. clear. generalize 0 as a. induction nc as [|k IH]; intro a; [reflexivity|]. cbn [seq map repeat]. f_equal. apply IH.
  - intros i Hi. apply in_seq in Hi. destruct (nth_error_lt parents i) as (c & E); [lia|]. rewrite E. cbn [obind]. pose proof (H c (nth_error_In _ _ E)). destruct (Nat.ltb_spec (size_local m) c); [lia|reflexivity].
Qed.

Section Identity.
Variables (P : nat) (nbx : (nat -> list nat) -> nat -> list nat).
Variables (set3 : nat -> list (nat * (nat * nat)) -> list (nat * (nat * nat))) (set2 : nat -> list (nat * nat) -> list (nat * nat)).
Variables (sched : nat -> nat -> list (nat * frow) -> list (nat * frow)) (tsort : nat -> list (list Z) -> list nat) (threads : nat -> nat).
Variables (pmaps : nat -> imap) (parent_cell : nat -> list nat) (t : cell_type) (cells : nat -> list Z).
Notation ts := (fun _ : nat => [t]).
Notation arrs := (fun q => [cells q]).
Hypothesis HP : 1 < P.
Hypothesis Hnbx : nbx_oracle P nbx.
Hypothesis (H3 : forall r, r < P -> lists_set (set3 r)) (H2 : forall r, r < P -> lists_set (set2 r)).
Hypothesis Hin : forall q, q < P -> input_ok [t] [cells q].
Hypothesis Hsched : forall q j l, q < P -> Permutation (sched q j l) l.
Hypothesis Htsort : forall q, q < P -> sorts_facets (tsort q).
Hypothesis Hthr : forall q, q < P -> 0 < threads q.
Hypothesis Hbig : (N.of_nat (lsum (map (fun q => num_facets [t] [cells q]) (seq 0 P))) < 2 ^ 63)%N.
Hypothesis Hshared : shared_by_at_most P ts arrs 2.
Hypothesis Hparents : forall q, q < P -> num_cells [t] [cells q] <= length (parent_cell q) /\ forall c, In c (parent_cell q) -> c < size_local (pmaps q).
Notation dual := (id_dual P nbx sched tsort threads t cells).
Notation graph := (id_graph P nbx sched tsort threads t cells).

Lemma dual_ok r : r < P -> dual r = Some (graph r) /\ length (graph r) = num_cells [t] [cells r] /\
  forall c row, nth_error (graph r) c = Some row -> forall d, In d row <-> adjacent P ts arrs (first_cell ts arrs r + c) d.
Proof.
  intro Hr. destruct (parallel_ok P nbx sched tsort ts arrs (Some 2) threads HP Hnbx Hin Hsched Htsort Hthr Hbig Hshared r Hr) as (rows & E & L & H).
  assert (Ed : dual r = Some rows).
  { unfold id_dual. rewrite E. cbn [obind]. rewrite psums_length, map_length. replace (S (length rows) - 1) with (length rows) by lia.
    rewrite (omap_map _ (fun i => nth i rows [])); [f_equal; clear; induction rows as [|a l IH]; [reflexivity|]; cbn [length seq map]; f_equal; rewrite <- seq_shift, map_map; exact IH|].
    intros i Hi. apply in_seq in Hi. apply slice_at_concat. apply nth_error_nth'. lia. }
  assert (Eg : graph r = rows) by (unfold id_graph; now rewrite Ed). rewrite Eg. split; [exact Ed|]. split; [exact L|]. intros c row Ec. exact (proj2 (H c row Ec)).
Qed.
Lemma first_eq r : r <= P -> first_node graph r = first_cell ts arrs r.
Proof. intro Hr. unfold first_node, first_cell. f_equal. apply map_ext_in. intros q Hq. apply in_seq in Hq. apply dual_ok. lia. Qed.
Lemma facet_lt q c i vs : has_facet [t] [cells q] c i vs -> c < num_cells [t] [cells q].
Proof.
  intro H. inversion H as [j t' a k i' fv E1 E2 Hk Ef]; subst. destruct j as [|j]; [|destruct j; discriminate]. injection E1 as <-. injection E2 as <-. cbn [firstn]. unfold num_cells. cbn [combine map fst snd]. rewrite lsum_cons, lsum_nil. lia.
Qed.
Lemma adj_sym g h : adjacent P ts arrs g h -> adjacent P ts arrs h g.
Proof. intros (i & j & vs & vs' & N & A & B & Q). exists j, i, vs', vs. split; [congruence|]. split; [exact B|]. split; [exact A|]. now apply Permutation_sym. Qed.
Lemma adj_ex g h : adjacent P ts arrs g h -> exists r c, r < P /\ c < length (graph r) /\ g = first_node graph r + c.
Proof.
  intros (i & j & vs & vs' & N & (r & c & Hr & -> & Hf) & _). exists r, c. split; [exact Hr|]. rewrite first_eq by lia. destruct (dual_ok r Hr) as (_ & L & _). rewrite L. split; [|reflexivity]. eapply facet_lt; eauto.
Qed.
Lemma linked_adj g h : linked P graph g h <-> adjacent P ts arrs g h.
Proof.
  split.
  - intros (r & i & links & Hr & -> & E & H). rewrite first_eq by lia. now apply (proj2 (proj2 (dual_ok r Hr)) i links E).
  - intro H. destruct (adj_ex g h H) as (r & c & Hr & Hc & ->). destruct (nth_error_lt (graph r) c Hc) as (links & E). exists r, c, links. split; [exact Hr|]. split; [reflexivity|]. split; [exact E|].
    apply (proj2 (proj2 (dual_ok r Hr)) c links E). now rewrite <- first_eq by lia.
Qed.

Lemma identity_ok r : r < P -> exists rows, identity_partitioner P nbx set3 set2 sched tsort threads pmaps parent_cell t cells r = Some rows /\
  length rows = num_cells [t] [cells r] /\
  forall c row, nth_error rows c = Some row -> hd_error row = Some r /\ NoDup row /\
    forall d, In d row <-> d = r \/ d < P /\ exists c', c' < num_cells [t] [cells d] /\ adjacent P ts arrs (first_cell ts arrs r + c) (first_cell ts arrs d + c').
Proof.
  intro Hr. unfold identity_partitioner.
  assert (Hn : forall q, id_num_cells t cells q = num_cells [t] [cells q]) by (intro q; unfold id_num_cells, num_cells; cbn [combine map fst snd]; rewrite lsum_cons, lsum_nil; unfold block_cells, verts; lia).
  assert (Hp : forall q, q < P -> id_part pmaps parent_cell t cells q = Some (repeat q (num_cells [t] [cells q]))) by (intros q Hq; unfold id_part; rewrite Hn; apply identity_owned; apply Hparents; exact Hq).
  rewrite (Hp r Hr). cbn [obind]. rewrite (proj1 (dual_ok r Hr)). cbn [obind]. set (part := fun q => match id_part pmaps parent_cell t cells q with Some p => p | None => [] end).
  assert (Epart : forall q, q < P -> part q = repeat q (num_cells [t] [cells q])) by (intros q Hq; unfold part; now rewrite Hp).
  destruct (destinations_ok P nbx set3 set2 graph (fun _ => psums (map (fun q => length (graph q)) (seq 0 P))) part Hnbx H3 H2) with (r := r) as (rows & E & L & H).
  - reflexivity.
  - intros q Hq. rewrite Epart by exact Hq. rewrite repeat_length. symmetry. apply dual_ok, Hq.
  - intros q links g Hq Hl Hg. apply In_nth_error in Hl as (c & Ec). assert (K : linked P graph (first_node graph q + c) g) by (exists q, c, links; auto). apply linked_adj, adj_sym, adj_ex in K as (s & c' & Hs & Hc & ->).
    pose proof (first_mono graph (S s) P Hs). rewrite (first_S graph s) in *. lia.
  - intros g h K. apply linked_adj. apply adj_sym. now apply linked_adj.
  - exact Hr.
  - exists rows. split; [exact E|]. split; [rewrite L; apply dual_ok, Hr|]. intros c row Ec.
    assert (Hc : c < num_cells [t] [cells r]) by (rewrite <- (proj1 (proj2 (dual_ok r Hr))), <- L; eapply nth_error_bound; eauto).
    destruct (H c row r Ec) as (A & B & C); [rewrite Epart by exact Hr; now apply nth_error_repeat|]. split; [exact A|]. split; [exact B|]. intro d. rewrite C. split; (intros [->|K]; [now left|right]).
    + destruct K as (h & Hl & (s & j & Hs & Hj & -> & Ej)). rewrite Epart in Ej by exact Hs. pose proof (nth_error_In _ _ Ej) as Hd. apply repeat_spec in Hd. subst s. split; [exact Hs|]. exists j. split; [rewrite <- (proj1 (proj2 (dual_ok d Hs))); exact Hj|]. apply linked_adj in Hl. now rewrite !first_eq in Hl by lia.
    + destruct K as (Hd & c' & Hc' & K). exists (first_node graph d + c'). split; [apply linked_adj; now rewrite !first_eq by lia|]. exists d, c'. split; [exact Hd|]. split; [rewrite (proj1 (proj2 (dual_ok d Hd))); exact Hc'|]. split; [reflexivity|]. rewrite Epart by exact Hd. now apply nth_error_repeat.
Qed.
End Identity.
