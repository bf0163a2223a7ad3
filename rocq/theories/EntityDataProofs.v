(** Proofs about the distribution of data on entities (C69). *)
From Verif Require Import Base BaseProofs Algo AlgoProofs BucketProofs World WorldProofs IndexMap IndexMapProofs RoundTrip ScattererProofs TransProofs BboxSearch PostOffice PostOfficeProofs
  PointOwnerProofs EntityData EntityDataSpec.

(** ** Lists *)
Lemma ksort_id {V} (l : list (nat * V)) : StronglySorted (fun a b => fst a <= fst b) l -> ksort l = l.
Proof.
  induction 1 as [|x l Hs IH Hx]; [reflexivity|]. change (ksort (x :: l)) with (insert (fun a c => fst a <=? fst c) x (ksort l)). rewrite IH. apply insert_front.
  intros y Hy. rewrite Forall_forall in Hx. apply Nat.leb_le, Hx, Hy.
Qed.
Lemma runs_ok {T} (l : list (nat * T)) : StronglySorted (fun a b => fst a <= fst b) l ->
  runs l = Some (sort_uniq (map fst l), (concat (map (fun k => vals k l) (sort_uniq (map fst l))),
    (map (fun k => length (vals k l)) (sort_uniq (map fst l)), psums (map (fun k => length (vals k l)) (sort_uniq (map fst l)))))).
Proof.
  intro H. unfold runs. destruct (key_runs_spec l) as (E1 & E2). rewrite (ksort_id l H) in E1, E2. rewrite E2. cbn [obind]. rewrite !map_map. cbn [fst snd]. rewrite map_id.
  f_equal. f_equal. f_equal. rewrite E1 at 1. rewrite concat_map, map_map. f_equal. apply map_ext. intro k. unfold grp. rewrite map_map. cbn [snd]. apply map_id.
Qed.
Lemma vals_perm {V} k (l l' : list (nat * V)) : Permutation l l' -> Permutation (vals k l) (vals k l').
Proof. intro H. unfold vals. apply Permutation_map, filter_perm, H. Qed.
Lemma filter_split {T} (p g : T -> bool) l : Permutation (filter g l) (filter (fun x => p x && g x) l ++ filter (fun x => negb (p x) && g x) l).
Proof.
  induction l as [|x l IH]; [constructor|]. cbn [filter]. destruct (p x), (g x); cbn [andb negb app]; try exact IH; [now constructor|].
  apply Permutation_cons_app, IH.
Qed.
Lemma perm_filter_negb {T} (p : T -> bool) l : Permutation l (filter p l ++ filter (fun x => negb (p x)) l).
Proof.
  induction l as [|x l IH]; [constructor|]. cbn [filter]. destruct (p x); cbn [negb app]; [now constructor|]. apply Permutation_cons_app, IH.
Qed.
Lemma group_perm {T} (key : T -> nat) l ks : forall g, NoDup ks -> (forall x, In x l -> g x = true -> In (key x) ks) ->
  Permutation (filter g l) (concat (map (fun k => filter (fun x => (key x =? k) && g x) l) ks)).
Proof.
  induction ks as [|k ks IH]; intros g Hn H.
  - replace (filter g l) with (@nil T); [constructor|]. symmetry. apply filter_none. intros x Hx. apply not_true_iff_false. intro E. exact (H x Hx E).
  - apply NoDup_cons_iff in Hn as (Hk & Hn). cbn [map concat]. eapply Permutation_trans; [apply (filter_split (fun x => key x =? k))|]. apply Permutation_app_head.
    rewrite (IH (fun x => negb (key x =? k) && g x) Hn).
    + apply Permutation_refl'. f_equal. apply map_ext_in. intros j Hj. apply filter_ext. intro x. destruct (Nat.eqb_spec (key x) j) as [E|N]; [|reflexivity].
      destruct (Nat.eqb_spec (key x) k) as [E'|N']; [subst; contradiction|]. reflexivity.
    + intros x Hx E. apply andb_true_iff in E as (E1 & E2). apply negb_true_iff, Nat.eqb_neq in E1. destruct (H x Hx E2) as [E|E]; [congruence|exact E].
Qed.
Lemma concat_perm {A B} (f g : A -> list B) l : (forall a, In a l -> Permutation (f a) (g a)) -> Permutation (concat (map f l)) (concat (map g l)).
Proof. induction l as [|a l IH]; intro H; [constructor|]. cbn [map concat]. apply Permutation_app; [apply H; now left|apply IH; intros; apply H; now right]. Qed.

(** ** Sorted neighbourhoods *)
Lemma sorted_graph P nbx ds : nbx_oracle P nbx -> (forall q, q < P -> NoDup (ds q)) -> (forall q d, q < P -> In d (ds q) -> d < P) ->
  graph_ok P (fun q => isort Nat.leb (nbx ds q)) ds.
Proof.
  intros Hn Hd Hlt r Hr. assert (E : forall q, q < P -> isort Nat.leb (nbx ds q) = filter (fun s => mem q (ds s)) (seq 0 P)) by (intros; now apply oracle_sorted).
  split; [now apply Hd|]. split; [rewrite E by exact Hr; apply NoDup_filter, seq_NoDup|]. split.
  - intro d. split.
    + intro H. pose proof (Hlt r d Hr H) as L. split; [exact L|]. rewrite E by exact L. apply filter_In. split; [apply in_seq; lia|now apply mem_iff].
    + intros (L & H). rewrite E in H by exact L. apply filter_In in H as (_ & H). now apply mem_iff in H.
  - intro s. rewrite E by exact Hr. rewrite filter_In, in_seq, mem_iff. intuition lia.
Qed.

(** ** Vertices of an entity *)
Section Rows.
Variables (cvd layout : list nat).
Hypothesis Hcvd : NoDup cvd.
Hypothesis Hlay : NoDup layout.
Notation evd := (entity_vertex_dofs cvd layout).
Lemma evd_in j : In j evd <-> exists d, nth_error layout j = Some d /\ In d cvd.
Proof.
  unfold entity_vertex_dofs. rewrite in_concat. split.
  - intros (l & Hl & H). apply in_map_iff in Hl as (d & <- & Hd). destruct (index_in d layout) as [i|] eqn:E; [|destruct H]. destruct H as [<-|[]]. apply index_in_some in E. eauto.
  - intros (d & E & Hd). exists [j]. split; [|now left]. apply in_map_iff. exists d. split; [|exact Hd]. now rewrite (index_in_nth d layout j Hlay E).
Qed.
Lemma evd_nodup : NoDup evd.
Proof.
  unfold entity_vertex_dofs. apply NoDup_concat; [exact Hcvd| |].
  - intros d _. destruct (index_in d layout); repeat constructor. intros [].
  - intros d d' j _ _ H H'. destruct (index_in d layout) as [i|] eqn:E; [|destruct H]. destruct (index_in d' layout) as [i'|] eqn:E'; [|destruct H'].
    destruct H as [<-|[]]. destruct H' as [->|[]]. apply index_in_some in E, E'. congruence.
Qed.
Lemma evd_perm : Permutation evd (filter (fun j => existsb (Nat.eqb (nth j layout 0)) cvd) (seq 0 (length layout))).
Proof.
  apply NoDup_Permutation; [apply evd_nodup|apply NoDup_filter, seq_NoDup|]. intro j. rewrite evd_in, filter_In, in_seq. split.
  - intros (d & E & Hd). pose proof (nth_error_bound _ _ _ E) as L. split; [lia|]. rewrite (nth_error_nth _ _ 0 E). now apply mem_iff.
  - intros (L & H). apply mem_iff in H. exists (nth j layout 0). split; [apply nth_error_nth'; lia|exact H].
Qed.
Lemma vertex_nodes_eq row : length row = length layout ->
  vertex_nodes cvd layout row = map (fun j => nth j row 0) (filter (fun j => existsb (Nat.eqb (nth j layout 0)) cvd) (seq 0 (length layout))).
Proof.
  intro L. unfold vertex_nodes. rewrite (combine_enum 0 0 layout row L), filter_map_comm, map_map. reflexivity.
Qed.
Lemma evd_length : length evd = length (filter (fun d => existsb (Nat.eqb d) cvd) layout).
Proof.
  rewrite (Permutation_length evd_perm). transitivity (length (filter (fun d => existsb (Nat.eqb d) cvd) (map (fun i => nth i layout 0) (seq 0 (length layout))))).
  - rewrite filter_map_comm, map_length. reflexivity.
  - now rewrite map_nth_seq.
Qed.
Lemma vertex_entity_ok nv row : nv = length (filter (fun d => existsb (Nat.eqb d) cvd) layout) -> length row = length layout ->
  exists ns, vertex_entity cvd layout nv row = Some ns /\ Permutation ns (vertex_nodes cvd layout row) /\ StronglySorted le ns /\ length ns = nv.
Proof.
  intros Hv L. unfold vertex_entity. rewrite L, Nat.eqb_refl. rewrite <- evd_length in Hv. subst nv.
  rewrite omap_map with (g := fun i => nth (nth i evd 0) row 0).
  2:{ intros i Hi. apply in_seq in Hi. destruct (nth_error_lt evd i) as (j & Ej); [lia|]. rewrite (nth_error_nth _ _ 0 Ej), Ej. cbn [obind]. apply nth_error_nth'.
      apply nth_error_In, evd_in in Ej as (d & Ed & _). apply nth_error_bound in Ed. lia. }
  cbn [obind]. eexists. split; [reflexivity|]. rewrite (map_seq_nth _ (fun j => nth j row 0) evd) by (intros k j Hk; now rewrite (nth_error_nth _ _ 0 Hk)). split; [|split].
  - rewrite (vertex_nodes_eq row L). eapply Permutation_trans; [apply Permutation_sym, isort_perm|]. apply Permutation_map, evd_perm.
  - apply nsort_sorted.
  - rewrite <- (Permutation_length (isort_perm _ Nat.leb _)). apply map_length.
Qed.
End Rows.

(** ** The map from input nodes to vertices *)
Section MeshMap.
Variables (cvd : list nat) (nodes_g : nat -> list nat) (c_to_v : nat -> option (list (list nat))) (xdofmap : nat -> list (list nat)) (r N : nat) (cv : list (list nat)).
Hypothesis Hcv : c_to_v r = Some cv.
Hypothesis Hok : mesh_nodes_ok cvd (nodes_g r) cv (xdofmap r) N.
Notation vof := (vertex_of cvd (nodes_g r) cv (xdofmap r)).
Lemma input_map_ok : exists m, input_idx_to_vertex cvd nodes_g c_to_v xdofmap r = Some m /\ forall n v, In (n, v) m <-> vof n v.
Proof.
  destruct Hok as (_ & _ & H3 & H4 & _). unfold input_idx_to_vertex. rewrite Hcv. cbn [obind].
  pose (g := fun c v => (nth (nth (nth v cvd 0) (nth c (xdofmap r) []) 0) (nodes_g r) 0, nth v (nth c cv []) 0)).
  rewrite omap_map with (g := fun c => map (g c) (seq 0 (length (nth c cv [])))).
  - cbn [obind]. eexists. split; [reflexivity|]. intros n v. rewrite <- in_rev, in_concat. split.
    + intros (l & Hl & H). apply in_map_iff in Hl as (c & <- & Hc). apply in_seq in Hc. apply in_map_iff in H as (k & E & Hk). apply in_seq in Hk.
      destruct (nth_error_lt cv c) as (vs & Ec); [lia|]. unfold g in E. rewrite (nth_error_nth _ _ [] Ec) in E, Hk. destruct (nth_error_lt vs k) as (v' & Ev); [lia|].
      destruct (H3 c k vs v' Ec Ev) as (xs & d & x & n' & E1 & E2 & E3 & E4). rewrite (nth_error_nth _ _ [] E1), (nth_error_nth _ _ 0 E2), (nth_error_nth _ _ 0 E3), (nth_error_nth _ _ 0 E4), (nth_error_nth _ _ 0 Ev) in E.
      injection E as <- <-. exists c, k, vs, xs, d, x. auto 8.
    + intros (c & k & vs & xs & d & x & Ec & Ev & E1 & E2 & E3 & E4). eexists. split; [apply in_map_iff; exists c; split; [reflexivity|apply in_seq; apply nth_error_bound in Ec; lia]|].
      apply in_map_iff. exists k. unfold g. rewrite (nth_error_nth _ _ [] Ec), (nth_error_nth _ _ [] E1), (nth_error_nth _ _ 0 E2), (nth_error_nth _ _ 0 E3), (nth_error_nth _ _ 0 E4), (nth_error_nth _ _ 0 Ev).
      split; [reflexivity|]. apply in_seq. apply nth_error_bound in Ev. lia.
  - intros c Hc. apply in_seq in Hc. destruct (nth_error_lt cv c) as (vs & Ec); [lia|]. rewrite (nth_error_nth _ _ [] Ec), Ec. cbn [obind]. destruct (H4 c vs Ec) as (xs & E1). rewrite E1. cbn [obind].
    apply omap_map. intros k Hk. apply in_seq in Hk. destruct (nth_error_lt vs k) as (v & Ev); [lia|]. destruct (H3 c k vs v Ec Ev) as (xs' & d & x & n & E1' & E2 & E3 & E4).
    rewrite E1 in E1'. injection E1' as <-. unfold g. rewrite (nth_error_nth _ _ [] Ec), (nth_error_nth _ _ [] E1), (nth_error_nth _ _ 0 E2), (nth_error_nth _ _ 0 E3), (nth_error_nth _ _ 0 E4), (nth_error_nth _ _ 0 Ev).
    rewrite Ev. cbn [obind]. rewrite E2. cbn [obind]. rewrite E3. cbn [obind]. rewrite E4. reflexivity.
Qed.
Lemma find_key_ok m : (forall n v, In (n, v) m <-> vof n v) -> forall n v, find_key m n = Some v <-> vof n v.
Proof.
  intros Hm n v. destruct Hok as (_ & _ & _ & _ & Hf). unfold find_key. destruct (find (fun p => fst p =? n) m) as [(n', v')|] eqn:E; cbn [obind].
  - apply find_some in E as (Hin & E). cbn [fst] in E. apply Nat.eqb_eq in E. subst n'. apply Hm in Hin. cbn [snd]. split; [intro K; injection K as <-; exact Hin|]. intro K. f_equal. exact (Hf n v' v Hin K).
  - split; [discriminate|]. intro K. apply Hm in K. pose proof (find_none _ _ E _ K) as F. cbn [fst] in F. rewrite Nat.eqb_refl in F. discriminate.
Qed.
Lemma vof_in n v : vof n v -> In n (nodes_g r).
Proof. intros (c & k & vs & xs & d & x & _ & _ & _ & _ & _ & E). now apply nth_error_In in E. Qed.
End MeshMap.

Section World.
Variables (P : nat) (nbx : (nat -> list nat) -> nat -> list nat) (V : Type).
Variable sort_by_dest : list (nat * (list nat * V)) -> list (nat * (list nat * V)).
Variables (cvd layout : list nat) (nv N : nat).
Variables (entities : nat -> list (list nat)) (data : nat -> list V) (nodes_g : nat -> list nat).
Variables (c_to_v : nat -> option (list (list nat))) (xdofmap : nat -> list (list nat)) (q0 : nat) (cv : list (list nat)).
Hypothesis Hnbx : nbx_oracle P nbx.
Hypothesis Hsort : sorts_keys sort_by_dest.
Hypothesis Hcvd : NoDup cvd.
Hypothesis Hlay : NoDup layout.
Hypothesis Hnv : nv = length (filter (fun d => existsb (Nat.eqb d) cvd) layout).
Hypothesis Hpos : 0 < nv.
Hypothesis Hdata : forall r, r < P -> length (entities r) = length (data r).
Hypothesis Hrows : forall r row, r < P -> In row (entities r) -> length row = length layout /\ forall n, In n (vertex_nodes cvd layout row) -> n < N.
Hypothesis Hnodes : forall r, r < P -> NoDup (nodes_g r) /\ forall n, In n (nodes_g r) -> n < N.

Notation own := (PostOfficeProofs.own P N).
Definition F (row : list nat) : list nat := match vertex_entity cvd layout nv row with Some ns => ns | None => [] end.
Definition fe (e : list nat * V) : list nat * V := (F (fst e), snd e).
Definition inputs (r : nat) : list (list nat * V) := combine (entities r) (data r).
Definition all_inputs : list (list nat * V) := concat (map inputs (seq 0 P)).
Definition hd0 (ev : list nat * V) : nat := hd 0 (fst ev).
Definition key (ev : list nat * V) : nat := own (hd0 ev).
Definition items (r : nat) : list (nat * (list nat * V)) := map (fun ev => (key ev, ev)) (map fe (inputs r)).

Lemma F_ok r row : r < P -> In row (entities r) -> vertex_entity cvd layout nv row = Some (F row) /\ Permutation (F row) (vertex_nodes cvd layout row) /\ StronglySorted le (F row) /\
  hd_error (F row) = Some (hd 0 (F row)) /\ hd 0 (F row) < N.
Proof.
  intros Hr Hrow. destruct (Hrows r row Hr Hrow) as (L & Hn). destruct (vertex_entity_ok cvd layout Hcvd Hlay nv row Hnv L) as (ns & E & Hp & Hs & Hl).
  unfold F. rewrite E. split; [reflexivity|]. split; [exact Hp|]. split; [exact Hs|]. destruct ns as [|n ns]; [cbn in Hl; lia|]. split; [reflexivity|]. apply Hn. eapply Permutation_in; [exact Hp|now left].
Qed.
Lemma in_inputs r e : In e (inputs r) -> In (fst e) (entities r).
Proof. destruct e as (row, d). intro H. now apply in_combine_l in H. Qed.
Lemma all_in e : In e all_inputs -> exists r, r < P /\ In (fst e) (entities r).
Proof. intro H. apply in_concat in H as (l & Hl & H). apply in_map_iff in Hl as (r & <- & Hr). apply in_seq in Hr. exists r. split; [lia|now apply in_inputs]. Qed.
Lemma key_lt r ev : r < P -> In ev (map fe (inputs r)) -> key ev < P /\ owner_of P N (hd0 ev) = Some (key ev) /\ hd_error (fst ev) = Some (hd0 ev) /\ hd0 ev < N.
Proof.
  intros Hr H. apply in_map_iff in H as (e & <- & He). apply in_inputs in He. destruct (F_ok r (fst e) Hr He) as (_ & _ & _ & Eh & L). unfold key, hd0, fe. cbn [fst].
  destruct (owner_ok P N ltac:(lia) _ L) as (E1 & E2 & _). auto.
Qed.
Lemma entity_items_ok r : r < P -> entity_items P V cvd layout nv N entities data r = Some (items r).
Proof.
  intro Hr. unfold entity_items. rewrite (Hdata r Hr), Nat.eqb_refl. rewrite omap_map with (g := F) by (intros row Hrow; now destruct (F_ok r row Hr Hrow)). cbn [obind].
  assert (E : combine (map F (entities r)) (data r) = map fe (inputs r)).
  { unfold inputs, fe. generalize (data r). induction (entities r) as [|e l IH]; intros [|d ds]; try reflexivity. cbn [map combine fst snd]. now rewrite IH. }
  rewrite E. apply omap_map. intros ev Hev. destruct (key_lt r ev Hr Hev) as (_ & E1 & E2 & _). rewrite E2. cbn [obind]. rewrite E1. reflexivity.
Qed.
Notation edest := (entity_dest P V sort_by_dest cvd layout nv N entities data).
Notation esrc := (entity_src P nbx V sort_by_dest cvd layout nv N entities data).
Definition EB (s p : nat) : list (list nat * V) := vals p (sort_by_dest (items s)).
Lemma post_entities_ok r : r < P -> post_entities P V sort_by_dest cvd layout nv N entities data r
  = Some (sort_uniq (map fst (sort_by_dest (items r))), (concat (map (EB r) (sort_uniq (map fst (sort_by_dest (items r))))),
      (map (fun p => length (EB r p)) (sort_uniq (map fst (sort_by_dest (items r)))), psums (map (fun p => length (EB r p)) (sort_uniq (map fst (sort_by_dest (items r)))))))).
Proof. intro Hr. unfold post_entities. rewrite (entity_items_ok r Hr). cbn [obind]. apply runs_ok, Hsort. Qed.
Lemma edest_ok r : r < P -> edest r = sort_uniq (map fst (sort_by_dest (items r))).
Proof. intro Hr. unfold entity_dest. rewrite (post_entities_ok r Hr). reflexivity. Qed.
Lemma edest_in r p : r < P -> (In p (edest r) <-> exists ev, In ev (map fe (inputs r)) /\ key ev = p).
Proof.
  intro Hr. rewrite (edest_ok r Hr), sort_uniq_in. destruct (Hsort (items r)) as (Hp & _). split.
  - intro H. apply in_map_iff in H as (x & <- & H). apply Permutation_sym in Hp. eapply Permutation_in in H; [|exact Hp]. apply in_map_iff in H as (ev & <- & H). eauto.
  - intros (ev & H & <-). apply in_map_iff. exists (key ev, ev). split; [reflexivity|]. eapply Permutation_in; [exact Hp|]. apply in_map_iff. eauto.
Qed.
Lemma egraph : graph_ok P esrc edest.
Proof.
  apply sorted_graph; [exact Hnbx| |].
  - intros q Hq. rewrite (edest_ok q Hq). apply sort_uniq_NoDup.
  - intros q d Hq H. apply (edest_in q d Hq) in H as (ev & Hev & <-). now destruct (key_lt q ev Hq Hev).
Qed.
Notation entp := (entitiesp P nbx V sort_by_dest cvd layout nv N entities data).
Definition recv_e (p : nat) : list (list nat * V) := concat (map (fun s => EB s p) (esrc p)).
Lemma entitiesp_ok p : p < P -> entp p = Some (recv_e p).
Proof.
  intro Hp. unfold entitiesp. rewrite (post_entities_ok p Hp). cbn [obind]. rewrite (exchange_spec P esrc edest _ EB p egraph Hp); [reflexivity|]. intros s Hs. apply egraph in Hs as (Hs & _); [|exact Hp].
  unfold run_buffer. rewrite (post_entities_ok s Hs). cbn [obind]. now rewrite <- (edest_ok s Hs).
Qed.
Lemma EB_perm s p : Permutation (filter (fun ev => key ev =? p) (map fe (inputs s))) (EB s p).
Proof.
  destruct (Hsort (items s)) as (Hp & _). eapply Permutation_trans; [|apply vals_perm, Hp]. unfold items. rewrite (vals_map_filter key (fun ev => ev)), map_id. apply Permutation_refl.
Qed.
Lemma recv_e_perm p : p < P -> Permutation (filter (fun ev => key ev =? p) (map fe all_inputs)) (recv_e p).
Proof.
  intro Hp. unfold recv_e, entity_src. rewrite (oracle_sorted P nbx edest p Hnbx Hp) by (intros q Hq; rewrite (edest_ok q Hq); apply sort_uniq_NoDup).
  rewrite concat_filter_nil.
  - unfold all_inputs. rewrite concat_map, map_map, filter_concat_map. apply concat_perm. intros s _. apply EB_perm.
  - intros s Hs E. apply in_seq in Hs. assert (Hs' : s < P) by lia. destruct (EB s p) as [|ev l] eqn:Eb; [reflexivity|]. exfalso. apply not_true_iff_false in E. apply E, mem_iff, (edest_in s p Hs').
    assert (Hin : In ev (EB s p)) by (rewrite Eb; now left).
    pose proof (Permutation_in ev (Permutation_sym (EB_perm s p)) Hin) as K. apply filter_In in K as (K & Ek). apply Nat.eqb_eq in Ek. eauto.
Qed.
Lemma recv_e_key p ev : p < P -> In ev (recv_e p) -> In ev (map fe all_inputs) /\ key ev = p.
Proof. intros Hp H. pose proof (Permutation_in ev (Permutation_sym (recv_e_perm p Hp)) H) as K. apply filter_In in K as (K & E). apply Nat.eqb_eq in E. auto. Qed.
Lemma all_hd ev : In ev (map fe all_inputs) -> hd_error (fst ev) = Some (hd0 ev) /\ hd0 ev < N.
Proof.
  intro H. apply in_map_iff in H as (e & <- & He). apply all_in in He as (r & Hr & He). destruct (F_ok r (fst e) Hr He) as (_ & _ & _ & Eh & L). unfold hd0, fe. cbn [fst]. auto.
Qed.

(** *** Nodes at the post office *)
Definition node_items (r : nat) : list (nat * nat) := map (fun n => (own n, n)) (nodes_g r).
Definition NB (s p : nat) : list nat := vals p (isort pair_leb (node_items s)).
Notation ndest := (node_dest P N nodes_g).
Notation nsrc := (node_src P nbx N nodes_g).
Lemma post_nodes_ok r : r < P -> post_nodes P N nodes_g r = Some (sort_uniq (map fst (isort pair_leb (node_items r))), (concat (map (NB r) (sort_uniq (map fst (isort pair_leb (node_items r))))),
      (map (fun p => length (NB r p)) (sort_uniq (map fst (isort pair_leb (node_items r)))), psums (map (fun p => length (NB r p)) (sort_uniq (map fst (isort pair_leb (node_items r)))))))).
Proof.
  intro Hr. unfold post_nodes. rewrite omap_map with (g := fun n => (own n, n)).
  - cbn [obind]. apply runs_ok. eapply SS_impl_in; [|apply psort_sorted]. intros a b _ _ H. apply pair_leb_iff in H. lia.
  - intros n Hn. destruct (Hnodes r Hr) as (_ & Hlt). destruct (owner_ok P N ltac:(lia) n (Hlt n Hn)) as (E & _). rewrite E. reflexivity.
Qed.
Lemma ndest_ok r : r < P -> ndest r = sort_uniq (map fst (isort pair_leb (node_items r))).
Proof. intro Hr. unfold node_dest. rewrite (post_nodes_ok r Hr). reflexivity. Qed.
Lemma ndest_in r p : r < P -> (In p (ndest r) <-> exists n, In n (nodes_g r) /\ own n = p).
Proof.
  intro Hr. rewrite (ndest_ok r Hr), sort_uniq_in, in_map_iff. split.
  - intros (x & <- & H). rewrite isort_in in H. apply in_map_iff in H as (n & <- & H). eauto.
  - intros (n & H & <-). exists (own n, n). split; [reflexivity|]. rewrite isort_in. apply in_map_iff. eauto.
Qed.
Lemma ngraph : graph_ok P nsrc ndest.
Proof.
  apply sorted_graph; [exact Hnbx| |].
  - intros q Hq. rewrite (ndest_ok q Hq). apply sort_uniq_NoDup.
  - intros q d Hq H. apply (ndest_in q d Hq) in H as (n & Hn & <-). destruct (Hnodes q Hq) as (_ & Hlt). now destruct (owner_ok P N ltac:(lia) n (Hlt n Hn)) as (_ & E & _).
Qed.
Lemma NB_perm s p : Permutation (filter (fun n => own n =? p) (nodes_g s)) (NB s p).
Proof.
  eapply Permutation_trans; [|apply vals_perm, isort_perm]. unfold node_items. rewrite (vals_map_filter own (fun n => n)), map_id. apply Permutation_refl.
Qed.
Lemma NB_in s p n : In n (NB s p) <-> In n (nodes_g s) /\ own n = p.
Proof.
  split; intro H.
  - pose proof (Permutation_in n (Permutation_sym (NB_perm s p)) H) as K. apply filter_In in K as (K & E). apply Nat.eqb_eq in E. auto.
  - apply (Permutation_in n (NB_perm s p)). apply filter_In. rewrite Nat.eqb_eq. exact H.
Qed.
Lemma NB_nodup s p : s < P -> NoDup (NB s p).
Proof. intro Hs. apply (Permutation_NoDup (NB_perm s p)). apply NoDup_filter, (Hnodes s Hs). Qed.
Lemma nodes_p_ok p : p < P -> nodes_p P nbx N nodes_g p = Some (concat (map (fun s => NB s p) (nsrc p)), map (fun s => length (NB s p)) (nsrc p)).
Proof.
  intro Hp. unfold nodes_p. rewrite (post_nodes_ok p Hp). cbn [obind]. apply (exchange_spec P nsrc ndest _ NB p ngraph Hp). intros s Hs. apply ngraph in Hs as (Hs & _); [|exact Hp].
  unfold run_buffer. rewrite (post_nodes_ok s Hs). cbn [obind]. now rewrite <- (ndest_ok s Hs).
Qed.
Definition blk (p i : nat) : list nat := NB (nth i (nsrc p) 0) p.
Lemma node_to_rank_ok p : p < P -> node_to_rank P nbx N nodes_g p = Some (concat (map (fun i => map (fun n => (n, i)) (blk p i)) (seq 0 (length (nsrc p))))).
Proof.
  intro Hp. unfold node_to_rank. rewrite (nodes_p_ok p Hp). cbn [obind]. rewrite map_length. rewrite omap_map with (g := fun i => map (fun n => (n, i)) (blk p i)); [reflexivity|].
  intros i Hi. apply in_seq in Hi. destruct (nth_error_lt (nsrc p) i) as (s & Es); [lia|]. rewrite (slice_blocks (fun s => NB s p) (nsrc p) i s _ Es) by reflexivity. cbn [obind].
  unfold blk. now rewrite (nth_error_nth _ _ 0 Es).
Qed.
Lemma vals_blocks_nodes n (B : nat -> list nat) l : (forall i, In i l -> NoDup (B i)) -> vals n (concat (map (fun i => map (fun n => (n, i)) (B i)) l)) = filter (fun i => mem n (B i)) l.
Proof.
  intro H. induction l as [|i l IH]; [reflexivity|]. cbn [map concat filter]. rewrite vals_app, IH by (intros; apply H; now right).
  assert (E : vals n (map (fun n => (n, i)) (B i)) = if mem n (B i) then [i] else []).
  { rewrite (vals_map_filter (fun n => n) (fun _ => i)). pose proof (H i (or_introl eq_refl)) as Hn. clear - Hn. induction (B i) as [|a b IH]; [reflexivity|]. apply NoDup_cons_iff in Hn as (Ha & Hn).
    cbn [filter]. unfold mem. cbn [existsb]. rewrite (Nat.eqb_sym n a). destruct (Nat.eqb_spec a n) as [E|N]; cbn [orb map].
    - subst a. rewrite (IH Hn). replace (mem n b) with false; [reflexivity|]. symmetry. apply not_true_iff_false. rewrite mem_iff. exact Ha.
    - exact (IH Hn). }
  rewrite E. destruct (mem n (B i)); reflexivity.
Qed.
Definition CB (p q : nat) : list (list nat * V) := filter (fun ev => mem (hd0 ev) (NB q p)) (recv_e p).
Lemma candidates_ok p : p < P -> candidates P nbx V sort_by_dest cvd layout nv N entities data nodes_g p
  = Some (concat (map (CB p) (nsrc p)), (map (fun q => length (CB p q)) (nsrc p), psums (map (fun q => length (CB p q)) (nsrc p)))).
Proof.
  intro Hp. unfold candidates. rewrite (node_to_rank_ok p Hp). cbn [obind]. rewrite (entitiesp_ok p Hp). cbn [obind].
  assert (Hb : forall i, In i (seq 0 (length (nsrc p))) -> NoDup (blk p i)).
  { intros i Hi. apply in_seq in Hi. apply NB_nodup. destruct (nth_error_lt (nsrc p) i) as (s & Es); [lia|]. rewrite (nth_error_nth _ _ 0 Es). apply nth_error_In, ngraph in Es as (Es & _); assumption. }
  rewrite omap_map with (g := fun ev => map (fun i => (i, ev)) (filter (fun i => mem (hd0 ev) (blk p i)) (seq 0 (length (nsrc p))))).
  2:{ intros ev Hev. apply recv_e_key in Hev as (Hev & _); [|exact Hp]. apply all_hd in Hev as (Eh & _). rewrite Eh. cbn [obind]. now rewrite (vals_blocks_nodes _ (blk p) _ Hb). }
  cbn [obind]. rewrite push_all_spec.
  2:{ intros kv H. apply in_concat in H as (l & Hl & H). apply in_map_iff in Hl as (ev & <- & _). apply in_map_iff in H as (i & <- & Hi). apply filter_In in Hi as (Hi & _). apply in_seq in Hi. cbn. lia. }
  cbn [obind]. rewrite (map_seq_nth _ (CB p) (nsrc p)); [now rewrite map_map|]. intros k q Hk. unfold CB. pose proof (nth_error_bound _ _ _ Hk) as Lk.
  induction (recv_e p) as [|ev l IH]; [reflexivity|]. cbn [map concat filter]. rewrite vals_app, IH. rewrite (vals_seq (fun _ => ev)); [|apply seq_NoDup|apply in_seq; lia].
  unfold blk. rewrite (nth_error_nth _ _ 0 Hk). destruct (mem (hd0 ev) (NB q p)); reflexivity.
Qed.
Definition got (q : nat) : list (list nat * V) := concat (map (fun p => CB p q) (ndest q)).
Lemma entities_data_ok q : q < P -> entities_data P nbx V sort_by_dest cvd layout nv N entities data nodes_g q = Some (got q).
Proof.
  intro Hq. unfold entities_data. rewrite (candidates_ok q Hq). cbn [obind]. rewrite (exchange_spec P ndest nsrc _ CB q (graph_ok_sym _ _ _ ngraph) Hq); [reflexivity|].
  intros p Hp. apply candidates_ok. apply (ngraph q Hq) in Hp. apply Hp.
Qed.
Lemma got_perm q : q < P -> Permutation (filter (fun ev => mem (hd0 ev) (nodes_g q)) (map fe all_inputs)) (got q).
Proof.
  intro Hq. eapply Permutation_trans; [apply (group_perm key (map fe all_inputs) (ndest q))|].
  - rewrite (ndest_ok q Hq). apply sort_uniq_NoDup.
  - intros ev _ H. apply mem_iff in H. apply (ndest_in q _ Hq). unfold key. eauto.
  - apply concat_perm. intros p Hp. assert (Lp : p < P) by (apply (ngraph q Hq) in Hp; apply Hp). unfold CB.
    eapply Permutation_trans; [|apply filter_perm, (recv_e_perm p Lp)]. rewrite filter_filter. apply Permutation_refl'. apply filter_ext_in. intros ev _.
    destruct (Nat.eqb_spec (key ev) p) as [E|Ne]; [|reflexivity]. cbn [andb]. destruct (mem (hd0 ev) (nodes_g q)) eqn:E1, (mem (hd0 ev) (NB q p)) eqn:E2; try reflexivity; exfalso.
    + apply mem_iff in E1. apply not_true_iff_false in E2. apply E2, mem_iff, NB_in. auto.
    + apply mem_iff, NB_in in E2. apply not_true_iff_false in E1. apply E1, mem_iff. apply E2.
Qed.

(** *** What is kept *)
Hypothesis Hq : q0 < P.
Hypothesis Hcv : c_to_v q0 = Some cv.
Hypothesis Hok : mesh_nodes_ok cvd (nodes_g q0) cv (xdofmap q0) N.
Notation vof := (vertex_of cvd (nodes_g q0) cv (xdofmap q0)).
Theorem distribute_ok : exists found here elsewhere,
  distribute_entity_data P nbx V sort_by_dest cvd layout nv N entities data nodes_g c_to_v xdofmap q0 = Some found /\
  Permutation all_inputs (here ++ elsewhere) /\
  Forall2 (found_as cvd layout (nodes_g q0) cv (xdofmap q0)) here found /\
  Forall (not_here cvd layout (nodes_g q0) cv (xdofmap q0)) elsewhere.
Proof.
  unfold distribute_entity_data. rewrite (entities_data_ok q0 Hq). cbn [obind]. destruct (input_map_ok cvd nodes_g c_to_v xdofmap q0 N cv Hcv Hok) as (m & Em & Hm). rewrite Em. cbn [obind].
  pose proof (find_key_ok cvd nodes_g xdofmap q0 N cv Hok m Hm) as Hf.
  pose proof (got_perm q0 Hq) as Hp. rewrite filter_map_comm in Hp. apply Permutation_sym in Hp. apply Permutation_map_inv in Hp as (A' & EA & Hp). rewrite EA.
  pose (kn := fun e : list nat * V => match omap (find_key m) (F (fst e)) with Some _ => true | None => false end).
  exists (select_entities V m (map fe A')), (filter kn A'), (filter (fun e => negb (kn e)) A' ++ filter (fun e => negb (mem (hd0 (fe e)) (nodes_g q0))) all_inputs).
  split; [reflexivity|].
  assert (HA : forall e, In e A' -> In e all_inputs) by (intros e He; apply (Permutation_in e (Permutation_sym Hp)) in He; now apply filter_In in He).
  split; [|split].
  - rewrite app_assoc. eapply Permutation_trans; [apply (perm_filter_negb (fun e => mem (hd0 (fe e)) (nodes_g q0)))|]. apply Permutation_app_tail.
    eapply Permutation_trans; [exact Hp|]. apply perm_filter_negb.
  - clear Hp EA. induction A' as [|e l IH]; [constructor|]. assert (He : In e all_inputs) by (apply HA; now left). specialize (IH (fun a Ha => HA a (or_intror Ha))).
    unfold select_entities in *. cbn [map concat filter]. unfold kn at 1. cbn [fst fe]. destruct (omap (find_key m) (F (fst e))) as [vs|] eqn:E; [|exact IH]. cbn [app]. constructor; [|exact IH].
    apply all_in in He as (r & Hr & He). destruct (F_ok r (fst e) Hr He) as (_ & Hpm & Hs & _). split; [reflexivity|]. exists (F (fst e)). split; [exact Hpm|]. split; [exact Hs|]. cbn [fst].
    clear - E Hf. revert vs E. induction (F (fst e)) as [|n ns IH]; intros vs E; cbn [omap] in E; [injection E as <-; constructor|].
    apply obind_some in E as (v & Ev & E). apply obind_some in E as (vs' & Evs & E). injection E as <-. constructor; [now apply Hf|now apply IH].
  - rewrite Forall_forall. intros e He. apply in_app_or in He as [He|He]; apply filter_In in He as (He & Eb); apply negb_true_iff in Eb.
    + unfold kn in Eb. destruct (omap (find_key m) (F (fst e))) as [vs|] eqn:E; [discriminate|]. apply HA, all_in in He as (r & Hr & He). destruct (F_ok r (fst e) Hr He) as (_ & Hpm & _).
      assert (K : exists n, In n (F (fst e)) /\ find_key m n = None).
      { clear - E. induction (F (fst e)) as [|n ns IH]; cbn [omap] in E; [discriminate|]. destruct (find_key m n) as [v|] eqn:En; [|exists n; split; [now left|exact En]]. cbn [obind] in E.
        destruct (omap (find_key m) ns); [discriminate|]. destruct (IH eq_refl) as (n' & H' & E'). exists n'. split; [now right|exact E']. }
      destruct K as (n & Hn & En). exists n. split; [exact (Permutation_in n Hpm Hn)|]. intros v Hv. apply Hf in Hv. congruence.
    + apply all_in in He as (r & Hr & He). destruct (F_ok r (fst e) Hr He) as (_ & Hpm & _ & Eh & _). exists (hd 0 (F (fst e))). split.
      * apply (Permutation_in _ Hpm). destruct (F (fst e)); [discriminate|now left].
      * intros v Hv. apply vof_in in Hv. apply not_true_iff_false in Eb. apply Eb, mem_iff, Hv.
Qed.
End World.
