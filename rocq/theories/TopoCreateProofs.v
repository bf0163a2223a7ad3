(** Proof of property C64: the vertices and cells of create_topology. *)
From Verif Require Import Base BaseProofs Algo AlgoProofs BucketProofs World WorldProofs IndexMap IndexMapSpec IndexMapProofs ImSharedProofs
  GhostIdx GhostIdxProofs MeshCreate MeshCreateProofs RoundTrip ScattererProofs StackProofs Ranges Sharing SharingProofs PatternMats GhostIdxSpec TopoCreate TopoCreateSpec TopoBase.
Open Scope nat_scope.

Section Own.
Variables (P : nat) (nbx : (nat -> list nat) -> nat -> list nat) (pick : nat -> nat -> nat -> nat).
Variables (types : nat) (nv : nat -> nat) (n : nat -> nat -> nat) (cells original : nat -> nat -> list Z) (owners : nat -> nat -> list nat).
Variable boundary : nat -> list Z.
Hypothesis Hin : topology_input P types nv n cells original owners boundary.
(** Owners of the boundary vertices and the rows of sharing ranks *)
Variables (so : Z -> nat) (rows : nat -> list (list nat)).
Hypothesis Hrows : forall r, r < P -> determine_sharing_ranks P nbx pick boundary r = Some (rows r) /\
  Forall2 (fun v l => exists rest, l = so v :: rest /\ Permutation l (sharers P boundary v)) (boundary r) (rows r).

Let hov := has_owned_vertex types nv n cells.
Let hv := has_vertex types cells.
Definition hgv (r : nat) (v : Z) : Prop := exists t, t < types /\ In v (skipn (n t r * nv t) (cells t r)).

Lemma len_cells t r : t < types -> r < P -> length (cells t r) = n t r * nv t + length (owners t r) * nv t.
Proof. intros Ht Hr. destruct (ti_len _ _ _ _ _ _ _ _ Hin t r Ht Hr) as (H1 & H2). rewrite H2, H1. apply Nat.mul_add_distr_r. Qed.

Lemma nlc_ok t r : t < types -> r < P -> num_local_cells nv cells owners t r = Some (n t r).
Proof.
  intros Ht Hr. unfold num_local_cells. pose proof (ti_nv _ _ _ _ _ _ _ _ Hin t Ht) as Hnv.
  destruct (ti_len _ _ _ _ _ _ _ _ Hin t r Ht Hr) as (H1 & H2). rewrite H2, Nat.mod_mul by lia. cbn [negb Nat.eqb].
  rewrite Nat.div_mul by lia. cbv zeta. rewrite H1. destruct (Nat.leb_spec (length (owners t r)) (n t r + length (owners t r))); [|lia]. f_equal. lia.
Qed.
Lemma nloc_ok t r : t < types -> r < P -> nloc nv cells owners t r = n t r.
Proof. intros Ht Hr. unfold nloc. now rewrite nlc_ok. Qed.
Lemma owned_cells_ok t r : t < types -> r < P -> owned_cells nv cells owners t r = Some (firstn (n t r * nv t) (cells t r)).
Proof.
  intros Ht Hr. unfold owned_cells. rewrite nlc_ok by assumption. cbn [obind]. apply slice_some. rewrite (len_cells t r Ht Hr).
  cbn [skipn]. rewrite Nat.sub_0_r. split; [lia|]. split; [lia|reflexivity].
Qed.
Lemma ghost_cells_ok t r : t < types -> r < P -> ghost_cells nv cells owners t r = Some (skipn (n t r * nv t) (cells t r)).
Proof.
  intros Ht Hr. unfold ghost_cells. rewrite nlc_ok by assumption. cbn [obind]. apply slice_some. rewrite (len_cells t r Ht Hr).
  rewrite Nat.add_sub. split; [lia|]. split; [lia|]. rewrite firstn_all2; [reflexivity|]. rewrite skipn_length, (len_cells t r Ht Hr). lia.
Qed.

Lemma firstn_in {A} (l : list A) k x : In x (firstn k l) <-> exists i, i < k /\ nth_error l i = Some x.
Proof.
  split.
  - intro H. apply In_nth_error in H as (i & Hi). pose proof (nth_error_bound _ _ _ Hi) as L. rewrite firstn_length in L.
    rewrite nth_error_firstn in Hi by lia. exists i. split; [lia|exact Hi].
  - intros (i & Hi & H). apply (nth_error_In _ i). now rewrite nth_error_firstn.
Qed.
Lemma skipn_in {A} (l : list A) k x : In x (skipn k l) <-> exists i, k <= i /\ nth_error l i = Some x.
Proof.
  split.
  - intro H. apply In_nth_error in H as (i & Hi). rewrite nth_error_skipn in Hi. exists (k + i). split; [lia|exact Hi].
  - intros (i & Hi & H). apply (nth_error_In _ (i - k)). rewrite nth_error_skipn. now replace (k + (i - k)) with i by lia.
Qed.

Lemma hov_iff r v : hov r v <-> exists t, t < types /\ In v (firstn (n t r * nv t) (cells t r)).
Proof.
  unfold hov, has_owned_vertex. split.
  - intros (t & c & j & Ht & Hc & Hj & H). exists t. split; [exact Ht|]. apply firstn_in. exists (c * nv t + j). split; [nia|exact H].
  - intros (t & Ht & H). apply firstn_in in H as (i & Hi & H). pose proof (ti_nv _ _ _ _ _ _ _ _ Hin t Ht) as Hnv.
    exists t, (i / nv t), (i mod nv t). split; [exact Ht|]. split; [apply Nat.div_lt_upper_bound; lia|]. split; [apply Nat.mod_upper_bound; lia|].
    rewrite Nat.mul_comm, <- Nat.div_mod by lia. exact H.
Qed.
Lemma hv_iff r v : hv r v <-> hov r v \/ hgv r v.
Proof.
  rewrite hov_iff. unfold hv, has_vertex, hgv. split.
  - intros (t & Ht & H). rewrite <- (firstn_skipn (n t r * nv t)) in H. apply in_app_iff in H as [H|H]; [left|right]; eauto.
  - intros [(t & Ht & H)|(t & Ht & H)]; exists t; (split; [exact Ht|]); rewrite <- (firstn_skipn (n t r * nv t)); apply in_app_iff; auto.
Qed.
Lemma hv_nonneg r v : r < P -> hv r v -> (0 <= v)%Z.
Proof. intros Hr (t & Ht & H). eapply (ti_nonneg _ _ _ _ _ _ _ _ Hin); eauto. Qed.

(** A ghost cell: its owner and its place there. *)
Lemma ghost_cell t r i v : t < types -> r < P -> n t r * nv t <= i -> nth_error (cells t r) i = Some v ->
  exists k j o g c, j < nv t /\ i = (n t r + k) * nv t + j /\ nth_error (owners t r) k = Some o /\ nth_error (original t r) (n t r + k) = Some g /\
    o < P /\ o <> r /\ c < n t o /\ nth_error (original t o) c = Some g /\ nth_error (cells t o) (c * nv t + j) = Some v /\
    forall j', j' < nv t -> nth_error (cells t r) ((n t r + k) * nv t + j') = nth_error (cells t o) (c * nv t + j').
Proof.
  intros Ht Hr Hi H. pose proof (ti_nv _ _ _ _ _ _ _ _ Hin t Ht) as Hnv. destruct (ti_len _ _ _ _ _ _ _ _ Hin t r Ht Hr) as (L1 & L2).
  pose proof (nth_error_bound _ _ _ H) as Hb. rewrite L2, L1 in Hb.
  assert (Hk : n t r <= i / nv t < n t r + length (owners t r)).
  { split; [apply Nat.div_le_lower_bound; lia|apply Nat.div_lt_upper_bound; lia]. }
  set (k := i / nv t - n t r). set (j := i mod nv t).
  assert (Hj : j < nv t) by (apply Nat.mod_upper_bound; lia).
  assert (Ei : i = (n t r + k) * nv t + j).
  { unfold k, j. replace (n t r + (i / nv t - n t r)) with (i / nv t) by lia. rewrite Nat.mul_comm. apply Nat.div_mod. lia. }
  destruct (nth_error_lt (owners t r) k) as (o & Ho); [unfold k; lia|].
  destruct (nth_error_lt (original t r) (n t r + k)) as (g & Hg); [unfold k; lia|].
  destruct (ti_ghost _ _ _ _ _ _ _ _ Hin t r k o g Ht Hr Ho Hg) as (A & B & c & C & D & E).
  exists k, j, o, g, c. split; [exact Hj|]. split; [exact Ei|]. split; [exact Ho|]. split; [exact Hg|]. split; [exact A|]. split; [exact B|].
  split; [exact C|]. split; [exact D|]. split; [|exact E]. rewrite <- (E j Hj), <- Ei. exact H.
Qed.
Lemma hgv_owner r v : r < P -> hgv r v -> exists o, o < P /\ hov o v.
Proof.
  intros Hr (t & Ht & H). apply skipn_in in H as (i & Hi & H).
  destruct (ghost_cell t r i v Ht Hr Hi H) as (k & j & o & g & c & Hj & _ & _ & _ & Ho & _ & Hc & _ & H' & _).
  exists o. split; [exact Ho|]. exists t, c, j. auto.
Qed.
Lemma hv_owner r v : r < P -> hv r v -> exists o, o < P /\ hov o v.
Proof. intros Hr H. apply hv_iff in H as [H|H]; [eauto|]. eapply hgv_owner; eauto. Qed.

(** ** Owners *)
Definition lset (q : nat) : list Z := nodes1 (concat (map (fun t => firstn (n t q * nv t) (cells t q)) (seq 0 types))).
Definition gset (q : nat) : list Z := nodes1 (concat (map (fun t => skipn (n t q * nv t) (cells t q)) (seq 0 types))).
Lemma lset_in q v : In v (lset q) <-> hov q v.
Proof.
  unfold lset. rewrite nodes1_in, in_concat, hov_iff. split.
  - intros (l & Hl & Hv). apply in_map_iff in Hl as (t & <- & Ht). apply in_seq in Ht. exists t. split; [lia|exact Hv].
  - intros (t & Ht & H). eexists. split; [|exact H]. apply (in_map (fun t => firstn (n t q * nv t) (cells t q))). apply in_seq. lia.
Qed.
Lemma gset_in q v : In v (gset q) <-> hgv q v.
Proof.
  unfold gset. rewrite nodes1_in, in_concat. unfold hgv. split.
  - intros (l & Hl & Hv). apply in_map_iff in Hl as (t & <- & Ht). apply in_seq in Ht. exists t. split; [lia|exact Hv].
  - intros (t & Ht & H). eexists. split; [|exact H]. apply (in_map (fun t => skipn (n t q * nv t) (cells t q))). apply in_seq. lia.
Qed.

Definition own (v : Z) : nat :=
  if existsb (fun q => existsb (Z.eqb v) (boundary q)) (seq 0 P) then so v
  else hd 0 (filter (fun q => existsb (Z.eqb v) (lset q)) (seq 0 P)).

Lemma zexistsb v l : existsb (Z.eqb v) l = true <-> In v l.
Proof. rewrite existsb_exists. split; [intros (x & Hx & E); apply Z.eqb_eq in E; now subst|]. intro H. exists v. now rewrite Z.eqb_refl. Qed.

Lemma own_boundary q v : q < P -> In v (boundary q) -> own v = so v /\ own v < P /\ In v (boundary (own v)).
Proof.
  intros Hq Hv.
  assert (E : own v = so v).
  { unfold own. destruct (existsb _ (seq 0 P)) eqn:E; [reflexivity|]. exfalso. rewrite <- not_true_iff_false in E. apply E.
    apply existsb_exists. exists q. split; [apply in_seq; lia|]. now apply zexistsb. }
  split; [exact E|]. rewrite E. destruct (Hrows q Hq) as (_ & HF). apply In_nth_error in Hv as (i & Hi).
  destruct (Forall2_nth _ _ _ i v HF Hi) as (l & _ & rest & -> & Hp).
  assert (In (so v) (sharers P boundary v)) as Hs by (eapply Permutation_in; [exact Hp|now left]).
  unfold sharers in Hs. apply filter_In in Hs as (H1 & H2). apply in_seq in H1. apply holds_iff in H2. split; [lia|exact H2].
Qed.
Lemma own_ok r v : r < P -> hov r v -> own v < P /\ hov (own v) v.
Proof.
  intros Hr Hv. destruct (existsb (fun q => existsb (Z.eqb v) (boundary q)) (seq 0 P)) eqn:E.
  - apply existsb_exists in E as (q & Hq & Hb). apply in_seq in Hq. apply zexistsb in Hb.
    destruct (own_boundary q v) as (_ & A & B); [lia|exact Hb|]. split; [exact A|]. eapply (ti_boundary _ _ _ _ _ _ _ _ Hin); eauto.
  - unfold own. rewrite E. destruct (filter _ (seq 0 P)) as [|q t] eqn:Ef.
    + exfalso. assert (In r []) as []. rewrite <- Ef. apply filter_In. split; [apply in_seq; lia|]. apply zexistsb. now apply lset_in.
    + cbn [hd]. assert (Hq : In q (q :: t)) by now left. rewrite <- Ef in Hq. apply filter_In in Hq as (Hq & Hb). apply in_seq in Hq. apply zexistsb in Hb. apply lset_in in Hb. split; [lia|exact Hb].
Qed.
Lemma own_hv r v : r < P -> hv r v -> own v < P /\ hov (own v) v.
Proof. intros Hr H. destruct (hv_owner r v Hr H) as (o & Ho & H'). eapply own_ok; eauto. Qed.
(** Vertices of owned cells are owned, or on the boundary. *)
Lemma own_inner r v : r < P -> hov r v -> ~ In v (boundary r) -> own v = r.
Proof.
  intros Hr Hv Hb. destruct (own_ok r v Hr Hv) as (A & B). destruct (Nat.eq_dec (own v) r) as [E|N]; [exact E|].
  exfalso. apply Hb. apply (ti_shared _ _ _ _ _ _ _ _ Hin r (own v) v); auto.
Qed.

(** ** Owned and unowned vertices *)
Definition O (q : nat) : list Z := isort Z.leb (set_difference (lset q) (boundary q) ++ filter (fun v => own v =? q) (boundary q)).
Definition U (q : nat) : list Z := isort Z.leb (set_difference (gset q) (lset q) ++ filter (fun v => negb (own v =? q)) (boundary q)).

Lemma O_spec q : q < P -> StronglySorted Z.lt (O q) /\ forall v, In v (O q) <-> hov q v /\ own v = q.
Proof.
  intro Hq. destruct (set_difference_spec (lset q) (boundary q) (nodes1_sorted _) (ti_sorted _ _ _ _ _ _ _ _ Hin q Hq)) as (S & I).
  split.
  - apply zsort_strict. apply NoDup_app_intro.
    + now apply SSZ_NoDup.
    + apply NoDup_filter, SSZ_NoDup, (ti_sorted _ _ _ _ _ _ _ _ Hin q Hq).
    + intros v H1 H2. apply I in H1 as (_ & H1). apply filter_In in H2 as (H2 & _). contradiction.
  - intro v. unfold O. rewrite isort_in, in_app_iff, I, filter_In, lset_in, Nat.eqb_eq. split.
    + intros [(A & B)|(A & B)].
      * split; [exact A|]. now apply own_inner.
      * split; [|exact B]. eapply (ti_boundary _ _ _ _ _ _ _ _ Hin); eauto.
    + intros (A & B). destruct (in_dec Z.eq_dec v (boundary q)) as [Hb|Hb]; [right|left]; auto.
Qed.
Lemma U_spec q : q < P -> StronglySorted Z.lt (U q) /\ forall v, In v (U q) <-> hv q v /\ own v <> q.
Proof.
  intro Hq. destruct (set_difference_spec (gset q) (lset q) (nodes1_sorted _) (nodes1_sorted _)) as (S & I).
  split.
  - apply zsort_strict. apply NoDup_app_intro.
    + now apply SSZ_NoDup.
    + apply NoDup_filter, SSZ_NoDup, (ti_sorted _ _ _ _ _ _ _ _ Hin q Hq).
    + intros v H1 H2. apply I in H1 as (_ & H1). apply filter_In in H2 as (H2 & _). apply H1, lset_in.
      eapply (ti_boundary _ _ _ _ _ _ _ _ Hin); eauto.
  - intro v. unfold U. rewrite isort_in, in_app_iff, I, filter_In, lset_in, gset_in, negb_true_iff, Nat.eqb_neq, hv_iff. split.
    + intros [(A & B)|(A & B)].
      * split; [auto|]. intro E. destruct (own_hv q v Hq) as (_ & C); [apply hv_iff; auto|]. rewrite E in C. contradiction.
      * split; [|exact B]. left. eapply (ti_boundary _ _ _ _ _ _ _ _ Hin); eauto.
    + intros (A & B). destruct (in_dec Z.eq_dec v (boundary q)) as [Hb|Hb]; [right; auto|left].
      assert (C : ~ hov q v) by (intro C; apply B; now apply own_inner). destruct A as [A|A]; [contradiction|]. auto.
Qed.

Lemma groups_ok q : q < P -> ownership_groups types nv cells owners boundary q =
  Some (set_difference (lset q) (boundary q), set_difference (gset q) (lset q)).
Proof.
  intro Hq. unfold ownership_groups.
  rewrite omap_map with (g := fun t => firstn (n t q * nv t) (cells t q)) by (intros t Ht; apply in_seq in Ht; apply owned_cells_ok; lia). cbn [obind].
  rewrite omap_map with (g := fun t => skipn (n t q * nv t) (cells t q)) by (intros t Ht; apply in_seq in Ht; apply ghost_cells_ok; lia). cbn [obind].
  unfold vertex_ownership_groups. fold (lset q) (gset q). cbv zeta.
  destruct (existsb _ _) eqn:E; [|reflexivity]. exfalso. apply existsb_exists in E as (v & Hv & Hb). apply zexistsb in Hb.
  apply (proj2 (set_difference_spec (gset q) (lset q) (nodes1_sorted _) (nodes1_sorted _))) in Hv as (_ & Hv). apply Hv, lset_in.
  eapply (ti_boundary _ _ _ _ _ _ _ _ Hin); eauto.
Qed.

(** Row of a boundary vertex *)
Lemma row_ok q i v : q < P -> nth_error (boundary q) i = Some v ->
  exists rest, nth_error (rows q) i = Some (own v :: rest) /\ NoDup (own v :: rest) /\
    forall s, In s (own v :: rest) <-> s < P /\ In v (boundary s).
Proof.
  intros Hq Hi. destruct (Hrows q Hq) as (_ & HF). destruct (Forall2_nth _ _ _ i v HF Hi) as (l & Hl & rest & -> & Hp).
  destruct (own_boundary q v Hq (nth_error_In _ _ Hi)) as (E & _). exists rest. rewrite E. split; [exact Hl|]. split.
  - symmetry in Hp. eapply Permutation_NoDup; [exact Hp|]. apply NoDup_filter, seq_NoDup.
  - intro s. transitivity (In s (sharers P boundary v)); [split; apply Permutation_in; [exact Hp|now symmetry]|].
    unfold sharers. rewrite filter_In, in_seq, holds_iff. intuition lia.
Qed.
Lemma rows_len q : q < P -> length (rows q) = length (boundary q).
Proof. intro Hq. destruct (Hrows q Hq) as (_ & HF). symmetry. eapply Forall2_len; eauto. Qed.

Lemma split_ok q : q < P -> split_vertices P nbx pick types nv cells owners boundary q = Some (O q, U q).
Proof.
  intro Hq. unfold split_vertices. rewrite groups_ok by exact Hq. cbn [obind]. unfold vertex_to_ranks.
  destruct (Hrows q Hq) as (E & _). rewrite E. cbn [obind].
  match goal with |- obind (ofold ?f (seq 0 ?m) ([], ?u)) _ = _ =>
    destruct (ofold_prefix_ind f (fun p (st : list Z * list Z) =>
       let b := firstn (length p) (boundary q) in p = seq 0 (length p) /\ length p <= m /\
       st = (filter (fun v => own v =? q) b, u ++ filter (fun v => negb (own v =? q)) b)) (seq 0 m) ([], u)) as (st & Es & H) end.
  - cbn. rewrite app_nil_r. auto with arith.
  - intros p i p' st Ep (H1 & H2 & ->).
    assert (Hi : i = length p /\ length p < length (boundary q)).
    { pose proof (f_equal (@length nat) Ep) as L. rewrite app_length, seq_length in L. cbn [length] in L.
      assert (nth_error (seq 0 (length (boundary q))) (length p) = Some i) as Hn by (rewrite Ep, nth_error_app2, Nat.sub_diag by lia; reflexivity).
      rewrite nth_error_seq in Hn by lia. injection Hn as <-. split; lia. }
    destruct Hi as (-> & Hi). destruct (nth_error_lt (boundary q) _ Hi) as (v & Hv).
    destruct (row_ok q _ v Hq Hv) as (rest & Hr & _). rewrite Hr. cbn [obind hd_error]. rewrite Hv. cbn [obind].
    eexists. split; [reflexivity|]. cbv zeta. rewrite app_length. cbn [length]. rewrite Nat.add_1_r. split; [rewrite seq_S; cbn; now rewrite <- H1|]. split; [lia|].
    assert (Ef : firstn (S (length p)) (boundary q) = firstn (length p) (boundary q) ++ [v]).
    { clear - Hv. revert Hv. generalize (length p). intro k. revert k. induction (boundary q) as [|x t IH]; intros [|k] Hv; try discriminate; cbn in Hv.
      - injection Hv as ->. reflexivity.
      - cbn [firstn app]. f_equal. now apply IH. }
    rewrite Ef, !filter_app. cbn [filter fst snd]. destruct (own v =? q); cbn [negb]; rewrite ?app_nil_r, ?app_assoc; reflexivity.
  - cbv beta zeta in H. rewrite seq_length in H. destruct H as (_ & _ & ->). rewrite Es. cbn [obind]. rewrite firstn_all. reflexivity.
Qed.
Lemma nowned_ok q : q < P -> nowned P nbx pick types nv cells owners boundary q = length (O q).
Proof. intro Hq. unfold nowned, owned_vertices. now rewrite split_ok. Qed.
Lemma offset_ok q : q <= P -> offset_v P nbx pick types nv cells owners boundary q = exscan (fun s => length (O s)) q.
Proof. intro Hq. unfold offset_v, exscan. f_equal. apply map_ext_in. intros s Hs. apply in_seq in Hs. apply nowned_ok. lia. Qed.

(** ** Local numbers *)
Definition ln (q : nat) (v : Z) : nat :=
  match local_indices P nbx pick types nv cells owners boundary q, zsearch (O q) v with
  | Some l, Some i => match nth_error l i with Some (Some x) => x | _ => 0 end
  | _, _ => 0
  end.
Lemma locals_ok q : q < P -> local_indices P nbx pick types nv cells owners boundary q = Some (map (fun v => Some (ln q v)) (O q)) /\
  Permutation (map (ln q) (O q)) (seq 0 (length (O q))).
Proof.
  intro Hq. destruct (O_spec q Hq) as (Hs & HI).
  assert (Hmem : forall v, In v (concat (map (fun t => cells t q) (seq 0 types))) <-> hv q v).
  { intro v. rewrite in_concat. unfold hv, has_vertex. split.
    - intros (l & Hl & Hv). apply in_map_iff in Hl as (t & <- & Ht). apply in_seq in Ht. exists t. split; [lia|exact Hv].
    - intros (t & Ht & H). exists (cells t q). split; [|exact H]. apply (in_map (fun t => cells t q)). apply in_seq. lia. }
  destruct (number_owned_ok (O q) (map (fun t => cells t q) (seq 0 types)) Hs) as (lo & E & Hp).
  - intros v Hv. apply Hmem in Hv. eapply hv_nonneg; eauto.
  - intros v Hv. apply Hmem. apply HI in Hv as (Hv & _). apply hv_iff. now left.
  - assert (El : local_indices P nbx pick types nv cells owners boundary q = Some (map Some lo)).
    { unfold local_indices. rewrite split_ok by exact Hq. cbn [obind]. exact E. }
    assert (L : length lo = length (O q)) by (rewrite (Permutation_length Hp); apply seq_length).
    assert (G : lo = map (ln q) (O q)).
    { apply nth_error_ext. intro i. rewrite nth_error_map_some. destruct (nth_error (O q) i) as [v|] eqn:Ei.
      - cbn [option_map]. destruct (nth_error_lt lo i) as (x & Hx); [rewrite L; eapply nth_error_bound; eauto|]. rewrite Hx. f_equal.
        unfold ln. rewrite El, (zsearch_nth (O q) i v Hs Ei), nth_error_map_some, Hx. reflexivity.
      - cbn [option_map]. apply nth_error_None. rewrite L. now apply nth_error_None. }
    rewrite <- (map_map (ln q) Some), <- G. auto.
Qed.
Lemma ln_lt q v : q < P -> In v (O q) -> ln q v < length (O q).
Proof. intros Hq Hv. destruct (locals_ok q Hq) as (_ & Hp). apply (in_map (ln q)) in Hv. eapply Permutation_in in Hv; [|exact Hp]. apply in_seq in Hv. lia. Qed.
Lemma ln_inj q v w : q < P -> In v (O q) -> In w (O q) -> ln q v = ln q w -> v = w.
Proof.
  intros Hq Hv Hw E. destruct (locals_ok q Hq) as (_ & Hp).
  assert (Hn : NoDup (map (ln q) (O q))) by (symmetry in Hp; eapply Permutation_NoDup; [exact Hp|apply seq_NoDup]).
  apply In_nth_error in Hv as (i & Hi). apply In_nth_error in Hw as (j & Hj).
  assert (i = j). { eapply NoDup_nth_error_inj; [exact Hn| |]; rewrite nth_error_map_some; [rewrite Hi; reflexivity|rewrite Hj, E; reflexivity]. }
  subst j. congruence.
Qed.
Lemma ln_onto q x : q < P -> x < length (O q) -> exists v, In v (O q) /\ ln q v = x.
Proof.
  intros Hq Hx. destruct (locals_ok q Hq) as (_ & Hp). assert (H : In x (map (ln q) (O q))) by (symmetry in Hp; eapply Permutation_in; [exact Hp|apply in_seq; lia]).
  apply in_map_iff in H as (v & <- & Hv). eauto.
Qed.

(** ** Global numbers *)
Definition gnum (v : Z) : nat := exscan (fun s => length (O s)) (own v) + ln (own v) v.
Lemma in_O r v : r < P -> hv r v -> In v (O (own v)) /\ own v < P.
Proof. intros Hr Hv. destruct (own_hv r v Hr Hv) as (A & B). split; [|exact A]. apply O_spec; auto. Qed.
Lemma gnum_inj r s v w : r < P -> s < P -> hv r v -> hv s w -> gnum v = gnum w -> v = w.
Proof.
  intros Hr Hs Hv Hw E. destruct (in_O r v Hr Hv) as (A & B). destruct (in_O s w Hs Hw) as (C & D). unfold gnum in E.
  destruct (exscan_unique _ _ _ _ _ (ln_lt _ _ B A) (ln_lt _ _ D C) E) as (E1 & E2). rewrite <- E1 in *. eapply ln_inj; eauto.
Qed.
(** ** Boundary vertices *)
Definition item (v : Z) : Z * (nat * nat) := (v, (gnum v, own v)).
(** Sent by [q] to [d] *)
Definition bnd (q d : nat) : list Z := filter (fun v => (own v =? q) && holds boundary v d) (boundary q).

Let src := ix_src P nbx pick boundary.
Let dest := ix_dest P nbx pick boundary.

Lemma rows_combine q : q < P -> exists rests, rows q = map (fun vr : Z * list nat => own (fst vr) :: snd vr) (combine (boundary q) rests) /\ length rests = length (boundary q) /\
  forall v rest, In (v, rest) (combine (boundary q) rests) -> NoDup (own v :: rest) /\ forall s, In s (own v :: rest) <-> s < P /\ In v (boundary s).
Proof.
  intro Hq. exists (map (@tl nat) (rows q)). pose proof (rows_len q Hq) as L.
  assert (G : forall i v, nth_error (boundary q) i = Some v -> exists rest, nth_error (rows q) i = Some (own v :: rest) /\ NoDup (own v :: rest) /\
     forall s, In s (own v :: rest) <-> s < P /\ In v (boundary s)) by (intros i v Hi; now apply row_ok).
  split; [|split; [now rewrite map_length|]].
  - apply nth_error_ext. intro i. rewrite nth_error_map_some. destruct (nth_error (boundary q) i) as [v|] eqn:Ei.
    + destruct (G i v Ei) as (rest & Hr & _). rewrite Hr. 
      assert (E : nth_error (combine (boundary q) (map (@tl nat) (rows q))) i = Some (v, rest)).
      { clear - Ei Hr. revert i Ei Hr. generalize (rows q). induction (boundary q) as [|x t IH]; intros [|y u] [|i] Ei Hr; try discriminate; cbn in *.
        - injection Ei as ->. injection Hr as ->. reflexivity.
        - now apply IH. }
      rewrite E. reflexivity.
    + apply nth_error_None in Ei. replace (nth_error (rows q) i) with (@None (list nat)) by (symmetry; apply nth_error_None; lia).
      replace (nth_error (combine _ _) i) with (@None (Z * list nat)); [reflexivity|]. symmetry. apply nth_error_None. rewrite combine_length, map_length. lia.
  - intros v rest H. apply in_combine_nth in H as (i & H1 & H2). destruct (G i v H1) as (rest' & Hr & A & B). rewrite nth_error_map_some, Hr in H2.
    cbn in H2. injection H2 as <-. auto.
Qed.

Lemma src_dest_ok q : q < P -> exists sd, ix_src_dest P nbx pick boundary q = Some sd /\ src q = fst sd /\ dest q = snd sd /\
  StronglySorted lt (src q) /\ StronglySorted lt (dest q) /\
  (forall s, In s (src q) <-> s <> q /\ exists v, In v (boundary q) /\ own v = s) /\
  (forall d, In d (dest q) <-> d < P /\ d <> q /\ exists v, In v (boundary d) /\ own v = q).
Proof.
  intro Hq. destruct (rows_combine q Hq) as (rests & Er & L & HR).
  set (cb := combine (boundary q) rests) in *.
  assert (E : ix_src_dest P nbx pick boundary q = Some
     (sort_uniq (map (fun vr : Z * list nat => own (fst vr)) (filter (fun vr => negb (own (fst vr) =? q)) cb)),
      sort_uniq (concat (map snd (filter (fun vr => own (fst vr) =? q) cb))))).
  { unfold ix_src_dest, vertex_to_ranks. destruct (Hrows q Hq) as (-> & _). cbn [obind]. rewrite Er, ofold_map.
    match goal with |- obind (ofold ?f cb ([], [])) _ = _ =>
      assert (G : forall l a b, ofold f l (a, b) = Some (a ++ map (fun vr : Z * list nat => own (fst vr)) (filter (fun vr => negb (own (fst vr) =? q)) l),
         b ++ concat (map snd (filter (fun vr => own (fst vr) =? q) l)))) end.
    { induction l as [|[v rest] l IH]; intros a b; [cbn; now rewrite !app_nil_r|]. cbn [ofold fst snd hd_error obind tl filter].
      destruct (own v =? q); cbn [negb map concat fst snd]; rewrite IH, <- ?app_assoc; reflexivity. }
    rewrite G. reflexivity. }
  eexists. split; [exact E|]. unfold src, dest, ix_src, ix_dest. rewrite E. cbn [fst snd]. split; [reflexivity|]. split; [reflexivity|].
  split; [apply sort_uniq_sorted|]. split; [apply sort_uniq_sorted|].
  assert (Hcb : forall v, In v (boundary q) -> exists rest, In (v, rest) cb).
  { intros v Hv. apply In_nth_error in Hv as (i & Hi). destruct (nth_error_lt rests i) as (rest & Hr); [rewrite L; eapply nth_error_bound; eauto|].
    exists rest. apply in_combine_nth. eauto. }
  split; intro s; rewrite sort_uniq_in.
  - rewrite in_map_iff. split.
    + intros ([v rest] & <- & H). apply filter_In in H as (H & N). cbn [fst] in *. apply negb_true_iff, Nat.eqb_neq in N. split; [exact N|].
      exists v. split; [|reflexivity]. now apply in_combine_l in H.
    + intros (N & v & Hv & <-). destruct (Hcb v Hv) as (rest & H). exists (v, rest). split; [reflexivity|]. apply filter_In. split; [exact H|].
      cbn [fst]. now apply negb_true_iff, Nat.eqb_neq.
  - rewrite in_concat. split.
    + intros (l & Hl & Hs). apply in_map_iff in Hl as ([v rest] & <- & H). apply filter_In in H as (H & N). cbn [fst snd] in *. apply Nat.eqb_eq in N.
      destruct (HR v rest H) as (Hn & HI). inversion Hn as [|? ? Hno _]; subst. destruct (proj1 (HI s) (or_intror Hs)) as (A & B).
      split; [exact A|]. split; [intros ->; contradiction|]. exists v. auto.
    + intros (Hs & N & v & Hv & Eo). destruct (own_boundary s v Hs Hv) as (_ & _ & Hb). rewrite Eo in Hb. destruct (Hcb v Hb) as (rest & H).
      destruct (HR v rest H) as (_ & HI). exists rest. split.
      * apply in_map_iff. exists (v, rest). split; [reflexivity|]. apply filter_In. split; [exact H|]. cbn. now apply Nat.eqb_eq.
      * destruct (proj2 (HI s) (conj Hs Hv)) as [E'|Hs']; [congruence|exact Hs'].
Qed.

Lemma ix_graph : graph_ok P src dest.
Proof.
  intros r Hr. destruct (src_dest_ok r Hr) as (_ & _ & _ & _ & Ss & Sd & Is & Id).
  split; [now apply SS_lt_NoDup|]. split; [now apply SS_lt_NoDup|]. split; intro s.
  - rewrite Id. split.
    + intros (A & B & v & C & D). split; [exact A|]. destruct (src_dest_ok s A) as (_ & _ & _ & _ & _ & _ & Is' & _). apply Is'. split; [auto|]. eauto.
    + intros (A & B). destruct (src_dest_ok s A) as (_ & _ & _ & _ & _ & _ & Is' & _). apply Is' in B as (N & v & C & D). split; [exact A|]. split; [auto|]. eauto.
  - rewrite Is. split.
    + intros (N & v & C & D). destruct (own_boundary r v Hr C) as (_ & A & B). rewrite D in A. split; [exact A|].
      destruct (src_dest_ok s A) as (_ & _ & _ & _ & _ & _ & _ & Id'). apply Id'. split; [exact Hr|]. split; [auto|]. eauto.
    + intros (A & B). destruct (src_dest_ok s A) as (_ & _ & _ & _ & _ & _ & _ & Id'). apply Id' in B as (_ & N & v & C & D). split; [auto|]. eauto.
Qed.

Lemma ix_send_ok q : q < P -> ix_send P nbx pick types nv cells owners boundary q =
  Some (concat (map (fun d => map item (bnd q d)) (dest q)),
        (map (fun d => length (map item (bnd q d))) (dest q), psums (map (fun d => length (map item (bnd q d))) (dest q)))).
Proof.
  intro Hq. destruct (src_dest_ok q Hq) as (sd & E & _ & Ed & _ & Sd & _ & Id). destruct (rows_combine q Hq) as (rests & Er & L & HR).
  set (cb := combine (boundary q) rests) in *.
  unfold ix_send. rewrite E. cbn [obind]. destruct sd as [sr de]. cbn [snd] in Ed. subst de. unfold vertex_to_ranks.
  destruct (Hrows q Hq) as (Hr & _). rewrite Hr. cbn [obind]. rewrite split_ok by exact Hq. cbn [obind].
  destruct (locals_ok q Hq) as (El & _). rewrite El. cbn [obind].
  set (kv := fun vr : Z * list nat => if own (fst vr) =? q then map (fun d => (d, item (fst vr))) (snd vr) else []).
  assert (Hall : forall vr, In vr cb -> forall x, In x (kv vr) -> In (fst x) (dest q)).
  { intros [v rest] H x Hx. unfold kv in Hx. cbn [fst snd] in Hx. destruct (Nat.eqb_spec (own v) q) as [Eo|_]; [|destruct Hx].
    apply in_map_iff in Hx as (d & <- & Hd). cbn [fst]. destruct (HR v rest H) as (Hn & HI). inversion Hn as [|? ? Hno _]; subst.
    destruct (proj1 (HI d) (or_intror Hd)) as (A & B). apply Id. split; [exact A|]. split; [intros ->; contradiction|]. eauto. }
  assert (Eomap : forall F : nat -> option (list (nat * (Z * (nat * nat)))), (forall i vr, nth_error cb i = Some vr ->
      F i = omap (fun x : nat * (Z * (nat * nat)) => k <- find_sorted (dest q) (fst x) ;; Some (k, snd x)) (kv vr)) ->
      omap F (seq 0 (length (rows q))) = omap (fun vr => omap (fun x : nat * (Z * (nat * nat)) => k <- find_sorted (dest q) (fst x) ;; Some (k, snd x)) (kv vr)) cb).
  { intros F HF. assert (Lr : length (rows q) = length cb) by (rewrite Er, map_length; reflexivity). rewrite Lr. clear - HF.
    assert (G : forall l a, (forall i vr, nth_error l i = Some vr -> F (a + i) = omap (fun x : nat * (Z * (nat * nat)) => k <- find_sorted (dest q) (fst x) ;; Some (k, snd x)) (kv vr)) ->
       omap F (seq a (length l)) = omap (fun vr => omap (fun x : nat * (Z * (nat * nat)) => k <- find_sorted (dest q) (fst x) ;; Some (k, snd x)) (kv vr)) l).
    { induction l as [|vr l IH]; intros a H; [reflexivity|]. cbn [length seq omap]. rewrite <- (H 0 vr eq_refl), Nat.add_0_r.
      rewrite (IH (S a)); [reflexivity|]. intros i vr' Hi. rewrite <- (H (S i) vr' Hi). f_equal. lia. }
    apply (G cb 0). intros i vr Hi. now apply HF. }
  rewrite Eomap.
  2:{ intros i [v rest] Hi. apply nth_error_In in Hi as Hvr. rewrite Er, nth_error_map_some, Hi. cbn [option_map obind hd_error fst snd tl]. unfold kv. cbn [fst snd].
      destruct (Nat.eqb_spec (own v) q) as [Eo|_]; [|reflexivity].
      assert (Hb : nth_error (boundary q) i = Some v).
      { unfold cb in Hi. clear - Hi. revert i rests Hi. induction (boundary q) as [|x t IH]; intros [|i] [|y u] Hi; try discriminate; cbn in *; [congruence|eauto]. }
      rewrite Hb. cbn [obind]. destruct (O_spec q Hq) as (So & Io).
      assert (Hv : In v (O q)). { apply Io. split; [|exact Eo]. eapply (ti_boundary _ _ _ _ _ _ _ _ Hin); eauto. eapply nth_error_In; eauto. }
      apply In_nth_error in Hv as (j & Hj). rewrite (zsearch_nth (O q) j v So Hj). cbn [obind]. rewrite nth_error_map_some, Hj. cbn [option_map obind].
      rewrite offset_ok by lia. assert (Eg : ln q v + exscan (fun s => length (O s)) q = gnum v) by (unfold gnum; rewrite Eo; lia). rewrite Eg.
      induction rest as [|d rest IHr]; [reflexivity|]. cbn [map omap fst snd]. unfold item at 1. rewrite Eo. destruct (find_sorted (dest q) d); [|reflexivity]. cbn [obind].
      clear - Eo. f_equal. induction rest as [|d' rest IHr]; [reflexivity|]. cbn [map omap fst snd]. unfold item at 1. rewrite Eo. destruct (find_sorted (dest q) d'); [|reflexivity]. cbn [obind]. now rewrite IHr. }
  destruct (bucket_by_dest (dest q) (concat (map kv cb)) Sd) as (kvs' & Eb & Ep).
  { intros x Hx. apply in_concat in Hx as (l & Hl & Hx). apply in_map_iff in Hl as (vr & <- & Hvr). eapply Hall; eauto. }
  assert (Ec : exists kvs, omap (fun vr => omap (fun x : nat * (Z * (nat * nat)) => k <- find_sorted (dest q) (fst x) ;; Some (k, snd x)) (kv vr)) cb = Some kvs /\ concat kvs = kvs').
  { clear - Eb. revert kvs' Eb. induction cb as [|vr l IH]; intros kvs' Eb; [cbn in *; injection Eb as <-; exists []; auto|].
    cbn [map concat] in Eb. rewrite omap_app in Eb. apply obind_some in Eb as (a & Ea & Eb). apply obind_some in Eb as (b & Eb & E). injection E as <-.
    destruct (IH b Eb) as (kvs & E1 & E2). exists (a :: kvs). cbn [omap]. rewrite Ea. cbn [obind]. rewrite E1. cbn [obind concat]. now rewrite E2. }
  destruct Ec as (kvs & Ec1 & Ec2). rewrite Ec1. cbn [obind]. rewrite Ec2, Ep. cbn [obind]. cbv zeta.
  assert (Ev : forall d, In d (dest q) -> vals d (concat (map kv cb)) = map item (bnd q d)).
  { intros d Hd. apply Id in Hd as (Hd & Nd & _). rewrite vals_concat, map_map. unfold bnd.
    assert (G : forall l, (forall vr, In vr l -> In vr cb) -> concat (map (fun vr => vals d (kv vr)) l) = map item (filter (fun v => (own v =? q) && holds boundary v d) (map fst l))).
    { induction l as [|[v rest] l IH]; intro Hl; [reflexivity|]. cbn [map concat filter fst]. rewrite IH by (intros; apply Hl; now right).
      assert (H := Hl _ (or_introl eq_refl)). destruct (HR v rest H) as (Hn & HI). unfold kv at 1. cbn [fst snd].
      destruct (Nat.eqb_spec (own v) q) as [Eo|_]; [|reflexivity]. cbn [andb].
      assert (Ed' : vals d (map (fun d0 => (d0, item v)) rest) = if holds boundary v d then [item v] else []).
      { inversion Hn as [|? ? Hno Hnr]; subst.
        destruct (holds boundary v d) eqn:Eh.
        - apply holds_iff in Eh. assert (Hin' : In d rest) by (destruct (proj2 (HI d) (conj Hd Eh)) as [E'|E']; [congruence|exact E']).
          clear - Hin' Hnr. induction rest as [|x t IHt]; [destruct Hin'|]. inversion Hnr as [|? ? Hx Ht]; subst. unfold vals in *. cbn [map filter fst].
          destruct (Nat.eqb_spec x d) as [->|N].
          + cbn [map snd]. f_equal. assert (G : forall u, ~ In d u -> map snd (filter (fun kv0 : nat * (Z * (nat * nat)) => fst kv0 =? d) (map (fun d0 => (d0, item v)) u)) = []).
            { induction u as [|y u IHu]; intro Hu; [reflexivity|]. cbn [map filter fst]. destruct (Nat.eqb_spec y d) as [->|_]; [exfalso; apply Hu; now left|]. apply IHu. intro; apply Hu; now right. }
            now apply G.
          + apply IHt; [exact Ht|]. destruct Hin' as [E|E]; [contradiction|exact E].
        - assert (Hnin : ~ In d rest). { intro Hr'. destruct (proj1 (HI d) (or_intror Hr')) as (_ & B). apply holds_iff in B. congruence. }
          clear - Hnin. induction rest as [|x t IHt]; [reflexivity|]. unfold vals in *. cbn [map filter fst]. destruct (Nat.eqb_spec x d) as [->|_]; [exfalso; apply Hnin; now left|].
          apply IHt. intro; apply Hnin; now right. }
      rewrite Ed'. destruct (holds boundary v d); reflexivity. }
    rewrite G by auto. unfold cb. rewrite map_fst_combine by (rewrite L; apply le_n). reflexivity. }
  rewrite map_map. rewrite (map_ext_in _ (fun d => map item (bnd q d)) (dest q)) by exact Ev.
  rewrite (map_ext_in (fun d => length (vals d (concat (map kv cb)))) (fun d => length (map item (bnd q d))) (dest q)) by (intros d Hd; now rewrite Ev).
  reflexivity.
Qed.

(** Vertices received by [r] *)
Definition rcv (r : nat) : list Z := concat (map (fun s => bnd s r) (src r)).
Lemma rcv_spec r : r < P -> NoDup (rcv r) /\ forall v, In v (rcv r) <-> In v (boundary r) /\ own v <> r.
Proof.
  intro Hr. destruct (src_dest_ok r Hr) as (_ & _ & _ & _ & Ss & _ & Is & _). split.
  - unfold rcv. assert (G : forall l, NoDup l -> (forall s, In s l -> s < P) -> NoDup (concat (map (fun s => bnd s r) l))).
    { induction 1 as [|s l Hs Hl IH]; intro HP; [constructor|]. cbn [map concat]. apply NoDup_app_intro.
      - apply NoDup_filter, SSZ_NoDup, (ti_sorted _ _ _ _ _ _ _ _ Hin). apply HP. now left.
      - apply IH. intros; apply HP; now right.
      - intros v H1 H2. apply filter_In in H1 as (_ & H1). apply andb_true_iff in H1 as (H1 & _). apply Nat.eqb_eq in H1.
        apply in_concat in H2 as (b & Hb & H2). apply in_map_iff in Hb as (s' & <- & Hs'). apply filter_In in H2 as (_ & H2).
        apply andb_true_iff in H2 as (H2 & _). apply Nat.eqb_eq in H2. apply Hs. congruence. }
    apply G; [now apply SS_lt_NoDup|]. intros s Hs. apply (ix_graph r Hr) in Hs. apply Hs.
  - intro v. unfold rcv. rewrite in_concat. split.
    + intros (b & Hb & Hv). apply in_map_iff in Hb as (s & <- & Hs). apply Is in Hs as (N & _). apply filter_In in Hv as (_ & Hv).
      apply andb_true_iff in Hv as (H1 & H2). apply Nat.eqb_eq in H1. apply holds_iff in H2. split; [exact H2|congruence].
    + intros (Hv & N). destruct (own_boundary r v Hr Hv) as (_ & A & B). exists (bnd (own v) r). split.
      * apply (in_map (fun s => bnd s r)). apply Is. eauto.
      * apply filter_In. split; [exact B|]. apply andb_true_iff. split; [apply Nat.eqb_refl|now apply holds_iff].
Qed.
Lemma exchange_indexing_ok r : r < P -> exchange_indexing P nbx pick types nv cells owners boundary r = Some (map item (rcv r)).
Proof.
  intro Hr. unfold exchange_indexing. rewrite ix_send_ok by exact Hr. cbn [obind].
  rewrite (exchange_spec P _ _ _ (fun s d => map item (bnd s d)) r ix_graph Hr).
  - cbn [obind]. unfold rcv. rewrite concat_map, map_map. reflexivity.
  - intros s Hs. apply ix_send_ok. apply (ix_graph r Hr) in Hs. apply Hs.
Qed.
(** ** Local numbers of ghosts *)
Definition A (q : nat) : list Z := isort Z.leb (O q ++ U q).
Lemma A_spec q : q < P -> StronglySorted Z.lt (A q) /\ forall v, In v (A q) <-> hv q v.
Proof.
  intro Hq. destruct (O_spec q Hq) as (So & Io). destruct (U_spec q Hq) as (Su & Iu). split.
  - apply zsort_strict, NoDup_app_intro; [now apply SSZ_NoDup|now apply SSZ_NoDup|]. intros v H1 H2. apply Io in H1. apply Iu in H2. tauto.
  - intro v. unfold A. rewrite isort_in, in_app_iff, Io, Iu. split.
    + intros [(H & _)|(H & _)]; [|exact H]. apply hv_iff. now left.
    + intro H. destruct (Nat.eq_dec (own v) q) as [E|N]; [left|right; auto]. split; [|exact E]. destruct (own_hv q v Hq H) as (_ & B). now rewrite E in B.
Qed.
Definition loc (q : nat) (done : list Z) (v : Z) : option nat := if own v =? q then Some (ln q v) else zidx (length (O q)) done v.
Definition stt (q : nat) (done : list Z) : vstate :=
  mkVS (map (zidx (length (O q)) done) (U q)) (map (fun v => (v, loc q done v)) (A q)) (length (O q) + length done) (map gnum done) (map own done).

Lemma add_ghost_ok q done pos v : q < P -> NoDup done -> ~ In v done -> nth_error (U q) pos = Some v ->
  add_ghost (stt q done) pos (item v) = Some (stt q (done ++ [v])).
Proof.
  intros Hq Hn Hd Hp. destruct (U_spec q Hq) as (Su & Iu). destruct (A_spec q Hq) as (Sa & Ia). apply nth_error_In in Hp as Hv. apply Iu in Hv as (Hv & No).
  assert (Hlast : zidx (length (O q)) (done ++ [v]) v = Some (length (O q) + length done)).
  { apply zidx_nth; [|rewrite nth_error_app2, Nat.sub_diag by lia; reflexivity]. apply NoDup_app_intro; [exact Hn|repeat constructor; intros []|].
    intros x Hx [->|[]]. contradiction. }
  unfold add_ghost, stt. cbn [vs_local vs_next vs_g2l vs_ghosts vs_owners item fst snd].
  rewrite <- Hlast. rewrite (upd_map_at (zidx (length (O q)) done) (zidx (length (O q)) (done ++ [v])) (U q) pos v (SSZ_NoDup _ Su) Hp).
  2:{ intros w _ Nw. apply zidx_snoc_neq. auto. }
  cbn [obind]. unfold patch. rewrite map_map. cbn [fst]. rewrite map_id.
  apply Ia in Hv. apply In_nth_error in Hv as (i & Hi). rewrite (zsearch_nth (A q) i v Sa Hi). cbn [obind].
  replace (v, Some (length (O q) + length done)) with (v, loc q (done ++ [v]) v).
  2:{ unfold loc. destruct (Nat.eqb_spec (own v) q); [contradiction|]. now rewrite Hlast. }
  rewrite (upd_map_at (fun w => (w, loc q done w)) (fun w => (w, loc q (done ++ [v]) w)) (A q) i v (SSZ_NoDup _ Sa) Hi).
  2:{ intros w _ Nw. f_equal. unfold loc. destruct (own w =? q); [reflexivity|]. apply zidx_snoc_neq. auto. }
  cbn [obind]. rewrite !map_app, app_length. cbn [length map]. rewrite Nat.add_1_r, <- plus_n_Sm. reflexivity.
Qed.

Lemma boundary_fold q l : q < P -> forall done, NoDup (done ++ l) -> (forall v, In v l -> In v (U q)) ->
  ofold (unpack_boundary (U q)) (map item l) (stt q done) = Some (stt q (done ++ l)).
Proof.
  intro Hq. destruct (U_spec q Hq) as (Su & _). induction l as [|v l IH]; intros done Hn Hl; [now rewrite app_nil_r|].
  cbn [map ofold]. unfold unpack_boundary at 1. cbn [item fst]. pose proof (Hl v (or_introl eq_refl)) as Hv. apply In_nth_error in Hv as (pos & Hp).
  rewrite (zsearch_nth (U q) pos v Su Hp). cbn [obind]. unfold stt at 1. cbn [vs_local]. rewrite nth_error_map_some, Hp. cbn [option_map obind].
  assert (Hd : ~ In v done). { intro H. apply NoDup_remove_2 in Hn. apply Hn. apply in_app_iff. now left. }
  rewrite zidx_none by exact Hd. fold (item v). rewrite add_ghost_ok; auto.
  - cbn [obind]. rewrite IH; [now rewrite <- app_assoc|now rewrite <- app_assoc|]. intros; apply Hl; now right.
  - clear - Hn. induction done as [|x d IHd]; [constructor|]. inversion Hn as [|? ? H1 H2]; subst. constructor; [|now apply IHd]. intro; apply H1, in_app_iff; now left.
Qed.

Lemma boundary_state_ok q : q < P -> boundary_state P nbx pick types nv cells owners boundary q = Some (stt q (rcv q)).
Proof.
  intro Hq. unfold boundary_state. rewrite split_ok by exact Hq. cbn [obind]. destruct (locals_ok q Hq) as (El & _). rewrite El. cbn [obind].
  rewrite exchange_indexing_ok by exact Hq. cbn [obind]. cbv zeta. destruct (O_spec q Hq) as (So & Io). destruct (U_spec q Hq) as (Su & Iu).
  destruct (A_spec q Hq) as (Sa & _).
  rewrite (g2l_sort (loc q []) _ (A q) Sa).
  - assert (E0 : mkVS (repeat None (length (U q))) (map (fun v => (v, loc q [] v)) (A q)) (length (O q)) [] [] = stt q []).
    { unfold stt. cbn [length map]. rewrite Nat.add_0_r. f_equal. clear. induction (U q) as [|x t IH]; [reflexivity|]. cbn [length repeat map]. now rewrite IH. }
    rewrite E0. destruct (rcv_spec q Hq) as (Hn & Hr). rewrite boundary_fold; [reflexivity|exact Hq|exact Hn|].
    intros v Hv. apply Hr in Hv as (Hv & N). apply Iu. split; [|exact N]. apply hv_iff. left. eapply (ti_boundary _ _ _ _ _ _ _ _ Hin); eauto.
  - transitivity (map (fun v => (v, loc q [] v)) (O q ++ U q)); [|apply Permutation_map; unfold A; apply isort_perm].
    rewrite map_app. apply Permutation_app.
    + assert (E : forall l, (forall v, In v l -> own v = q) -> combine l (map (fun v => Some (ln q v)) l) = map (fun v => (v, loc q [] v)) l).
      { induction l as [|v l IH]; intro H; [reflexivity|]. cbn [map combine]. rewrite IH by (intros; apply H; now right). f_equal. f_equal.
        unfold loc. rewrite (H v (or_introl eq_refl)), Nat.eqb_refl. reflexivity. }
      rewrite E; [reflexivity|]. intros v Hv. now apply Io in Hv.
    + assert (E : forall l, (forall v, In v l -> own v <> q) -> combine l (repeat None (length l)) = map (fun v => (v, loc q [] v)) l).
      { induction l as [|v l IH]; intro H; [reflexivity|]. cbn [map combine length repeat]. rewrite IH by (intros; apply H; now right). f_equal. f_equal.
        unfold loc. destruct (Nat.eqb_spec (own v) q) as [E|_]; [|reflexivity]. exfalso. exact (H v (or_introl eq_refl) E). }
      rewrite E; [reflexivity|]. intros v Hv. now apply Iu in Hv.
Qed.

Lemma ghost_fold q l : q < P -> forall done, NoDup done -> (forall v, In v done -> In v (U q)) ->
  exists done', ofold (unpack_ghost (U q)) (map item l) (stt q done) = Some (stt q done') /\ NoDup done' /\
    (forall v, In v done' -> In v (U q)) /\ (forall v, In v done -> In v done') /\ (forall v, In v l -> In v (U q) -> In v done').
Proof.
  intro Hq. destruct (U_spec q Hq) as (Su & _). induction l as [|v l IH]; intros done Hn Hl.
  { exists done. cbn [map ofold]. split; [reflexivity|]. split; [exact Hn|]. split; [exact Hl|]. split; [auto|intros ? []]. }
  cbn [map ofold]. unfold unpack_ghost at 1. cbn [item fst]. destruct (in_dec Z.eq_dec v (U q)) as [Hv|Hv].
  - apply In_nth_error in Hv as (pos & Hp). rewrite (zsearch_nth (U q) pos v Su Hp). unfold stt at 1. cbn [vs_local]. rewrite nth_error_map_some, Hp. cbn [option_map obind].
    destruct (in_dec Z.eq_dec v done) as [Hd|Hd].
    + apply In_nth_error in Hd as Hd'. destruct Hd' as (k & Hk). rewrite (zidx_nth _ done k v Hn Hk).
      cbn [obind]. destruct (IH done Hn Hl) as (done' & E & H1 & H2 & H3 & H4). exists done'. split; [exact E|]. split; [exact H1|]. split; [exact H2|]. split; [exact H3|].
      intros w [<-|Hw] HU; [now apply H3|now apply H4].
    + rewrite zidx_none by exact Hd. fold (item v). rewrite add_ghost_ok by assumption. cbn [obind].
      destruct (IH (done ++ [v])) as (done' & E & H1 & H2 & H3 & H4).
      * apply NoDup_app_intro; [exact Hn|repeat constructor; intros []|]. intros x Hx [->|[]]. contradiction.
      * intros w Hw. apply in_app_iff in Hw as [Hw|[<-|[]]]; [now apply Hl|eapply nth_error_In; eauto].
      * exists done'. split; [exact E|]. split; [exact H1|]. split; [exact H2|]. split; [intros; apply H3, in_app_iff; now left|].
        intros w [<-|Hw] HU; [apply H3, in_app_iff; right; now left|now apply H4].
  - rewrite zsearch_none by exact Hv. cbn [obind]. destruct (IH done Hn Hl) as (done' & E & H1 & H2 & H3 & H4). exists done'.
    split; [exact E|]. split; [exact H1|]. split; [exact H2|]. split; [exact H3|]. intros w [<-|Hw] HU; [contradiction|now apply H4].
Qed.

(** ** Cells *)
Variables (pcx nbxc : (nat -> list nat) -> nat -> list nat) (threads : nat -> nat).
Hypothesis HP : 0 < P.
Hypothesis Hpcx : nbx_oracle P pcx.
Hypothesis Hnbxc : nbx_oracle P nbxc.

Definition cown (t s : nat) : list Z := firstn (nloc nv cells owners t s) (original t s).
Definition cgh (t s : nat) : list Z := skipn (length (original t s) - length (owners t s)) (original t s).
Lemma cown_ok t s : t < types -> s < P -> cown t s = firstn (n t s) (original t s) /\ length (cown t s) = n t s.
Proof.
  intros Ht Hs. unfold cown. rewrite nloc_ok by assumption. split; [reflexivity|]. rewrite firstn_length. destruct (ti_len _ _ _ _ _ _ _ _ Hin t s Ht Hs). lia.
Qed.
Lemma cown_nth t s k g : t < types -> s < P -> nth_error (cown t s) k = Some g <-> k < n t s /\ nth_error (original t s) k = Some g.
Proof.
  intros Ht Hs. destruct (cown_ok t s Ht Hs) as (E & L). split.
  - intro H. pose proof (nth_error_bound _ _ _ H) as Hb. rewrite L in Hb. rewrite E, nth_error_firstn in H by exact Hb. auto.
  - intros (Hk & H). now rewrite E, nth_error_firstn.
Qed.
Lemma cgh_nth t s k : t < types -> s < P -> nth_error (cgh t s) k = nth_error (original t s) (n t s + k).
Proof. intros Ht Hs. unfold cgh. destruct (ti_len _ _ _ _ _ _ _ _ Hin t s Ht Hs) as (L & _). rewrite L, Nat.add_sub, nth_error_skipn. reflexivity. Qed.
Lemma cgh_len t s : t < types -> s < P -> length (cgh t s) = length (owners t s).
Proof. intros Ht Hs. unfold cgh. rewrite skipn_length. destruct (ti_len _ _ _ _ _ _ _ _ Hin t s Ht Hs) as (L & _). lia. Qed.

Lemma ginput_ok t : t < types -> ghost_input_ok P (cown t) (cgh t) (owners t).
Proof.
  intro Ht. split; [|split].
  - intros q q' i i' g Hq Hq' H1 H2. apply cown_nth in H1 as (L1 & H1); [|assumption|assumption]. apply cown_nth in H2 as (L2 & H2); [|assumption|assumption].
    pose proof (ti_owner _ _ _ _ _ _ _ _ Hin t q q' i i' g Ht Hq Hq' L1 L2 H1 H2) as E. split; [exact E|]. subst q'.
    eapply NoDup_nth_error_inj; [apply (ti_once _ _ _ _ _ _ _ _ Hin t q Ht Hq)|exact H1|exact H2].
  - intros r Hr. symmetry. now apply cgh_len.
  - intros r i g o Hr H1 H2. rewrite cgh_nth in H1 by assumption. destruct (ti_ghost _ _ _ _ _ _ _ _ Hin t r i o g Ht Hr H2 H1) as (A1 & A2 & c & A3 & A4 & _).
    split; [exact A1|]. split; [exact A2|]. apply (nth_error_In _ c). apply cown_nth; auto.
Qed.
Lemma new_number_ok t o k : t < types -> o <= P -> new_number (cown t) o k = exscan (n t) o + k.
Proof.
  intros Ht Ho. unfold new_number, exscan. f_equal. f_equal. apply map_ext_in. intros s Hs. apply in_seq in Hs. apply cown_ok; [exact Ht|lia].
Qed.

Definition cgs (t q : nat) : list nat := match cell_ghosts P pcx threads nv cells original owners t q with Some g => g | None => [] end.
(** Owner and place of a ghost cell *)
Lemma cell_ghosts_ok t q : t < types -> q < P -> cell_ghosts P pcx threads nv cells original owners t q = Some (cgs t q) /\
  length (cgs t q) = length (owners t q) /\
  forall k o g, nth_error (owners t q) k = Some o -> nth_error (original t q) (n t q + k) = Some g ->
    o < P /\ o <> q /\ exists c, c < n t o /\ nth_error (original t o) c = Some g /\ nth_error (cgs t q) k = Some (exscan (n t) o + c) /\
      forall j, j < nv t -> nth_error (cells t q) ((n t q + k) * nv t + j) = nth_error (cells t o) (c * nv t + j).
Proof.
  intros Ht Hq. destruct (ghost_indices_ok P pcx (cown t) (cgh t) (owners t) threads Hpcx (ginput_ok t Ht) q Hq) as (l & E & L & H).
  assert (Ec : cell_ghosts P pcx threads nv cells original owners t q = Some l).
  { unfold cell_ghosts. destruct (ti_len _ _ _ _ _ _ _ _ Hin t q Ht Hq) as (L1 & _). rewrite L1.
    destruct (Nat.leb_spec (length (owners t q)) (n t q + length (owners t q))); [|lia]. exact E. }
  unfold cgs. rewrite Ec. split; [reflexivity|]. split; [rewrite L; now apply cgh_len|].
  intros k o g Ho Hg. destruct (ti_ghost _ _ _ _ _ _ _ _ Hin t q k o g Ht Hq Ho Hg) as (A1 & A2 & c & A3 & A4 & A5).
  split; [exact A1|]. split; [exact A2|]. exists c. split; [exact A3|]. split; [exact A4|]. split; [|exact A5].
  rewrite <- new_number_ok by (auto; lia). apply (H k g o c); [now rewrite cgh_nth|exact Ho|]. apply cown_nth; auto.
Qed.

Lemma exscan_n t o : t < types -> o <= P -> lsum (map (nloc nv cells owners t) (seq 0 o)) = exscan (n t) o.
Proof. intros Ht Ho. unfold exscan. f_equal. apply map_ext_in. intros s Hs. apply in_seq in Hs. apply nloc_ok; [exact Ht|lia]. Qed.

Lemma cells_inputs t : t < types -> inputs_ok P (nloc nv cells owners t) (cgs t) (owners t).
Proof.
  intros Ht r Hr. destruct (cell_ghosts_ok t r Ht Hr) as (_ & L & H). destruct (ti_len _ _ _ _ _ _ _ _ Hin t r Ht Hr) as (L1 & _).
  split; [symmetry; exact L|]. split.
  - apply NoDup_nth_error. intros i j Hi Eij. rewrite L in Hi.
    destruct (nth_error_lt (owners t r) i Hi) as (o & Ho). destruct (nth_error_lt (original t r) (n t r + i)) as (g & Hg); [lia|].
    destruct (H i o g Ho Hg) as (Po & _ & c & Hc & Hgc & Ec & _).
    assert (Hj : j < length (owners t r)). { rewrite <- L. eapply nth_error_bound. rewrite <- Eij. exact Ec. }
    destruct (nth_error_lt (owners t r) j Hj) as (o' & Ho'). destruct (nth_error_lt (original t r) (n t r + j)) as (g' & Hg'); [lia|].
    destruct (H j o' g' Ho' Hg') as (Po' & _ & c' & Hc' & Hgc' & Ec' & _). rewrite Eij, Ec' in Ec. injection Ec as Ec.
    destruct (exscan_unique _ _ _ _ _ Hc' Hc Ec) as (E1 & E2). subst o' c'. rewrite Hgc in Hgc'. injection Hgc' as <-.
    assert (n t r + i = n t r + j); [|lia]. eapply NoDup_nth_error_inj; [apply (ti_once _ _ _ _ _ _ _ _ Hin t r Ht Hr)|exact Hg|exact Hg'].
  - intros k g o Hk Ho. destruct (nth_error_lt (original t r) (n t r + k)) as (x & Hx); [apply nth_error_bound in Ho; lia|].
    destruct (H k o x Ho Hx) as (A1 & A2 & c & A3 & _ & A5 & _). split; [exact A1|]. split; [exact A2|]. rewrite Hk in A5. injection A5 as ->.
    rewrite !exscan_n by (auto; lia). rewrite exscan_S. lia.
Qed.
Let cm := cmap P pcx nbxc threads nv cells original owners.
Lemma cm_ok t : t < types -> maps_ok P (cm t) /\ forall r, r < P -> cell_map P pcx nbxc threads nv cells original owners t r = Some (cm t r) /\
  im_ghosts (cm t r) = cgs t r /\ im_owners (cm t r) = owners t r /\ size_local (cm t r) = n t r /\ im_lo (cm t r) = exscan (n t) r.
Proof.
  intro Ht. destruct (built_ok P nbxc Hnbxc _ _ _ (cells_inputs t Ht) HP) as (Hok & Hb).
  assert (E : forall r, r < P -> cell_map P pcx nbxc threads nv cells original owners t r = Some (built P nbxc (nloc nv cells owners t) (cgs t) (owners t) r)).
  { intros r Hr. unfold cell_map. destruct (cell_ghosts_ok t r Ht Hr) as (-> & _). cbn [obind]. apply (Hb r Hr). }
  assert (E' : forall r, r < P -> cm t r = built P nbxc (nloc nv cells owners t) (cgs t) (owners t) r) by (intros r Hr; unfold cm, cmap; now rewrite E).
  assert (Hok' : maps_ok P (cm t)). { eapply maps_ok_ext; [exact HP| |exact Hok]. intros r Hr. symmetry. now apply E'. }
  split; [exact Hok'|]. intros r Hr. rewrite (E r Hr), (E' r Hr). destruct (Hb r Hr) as (_ & H1 & H2 & H3 & _).
  split; [reflexivity|]. split; [exact H1|]. split; [exact H2|]. split; [rewrite H3; now apply nloc_ok|].
  rewrite <- E' by exact Hr. rewrite (lo_is_sum P (cm t) Hok' r Hr). unfold exscan. f_equal. apply map_ext_in. intros s Hs. apply in_seq in Hs.
  rewrite E' by lia. destruct (Hb s) as (_ & _ & _ & H & _); [lia|]. rewrite H. apply nloc_ok; [exact Ht|lia].
Qed.

(** ** Vertices of ghost cells *)
Definition crow (t q c : nat) : list Z := firstn (nv t) (skipn (c * nv t) (cells t q)).
Definition SV (t q s : nat) : list Z := nodes1 (concat (map (fun g => crow t q (g - im_lo (cm t q))) (gof (cm t) s q))).

Lemma crow_in t q c v : In v (crow t q c) <-> exists j, j < nv t /\ nth_error (cells t q) (c * nv t + j) = Some v.
Proof. unfold crow. rewrite firstn_in. split; intros (j & Hj & H); exists j; (split; [exact Hj|]); [now rewrite nth_error_skipn in H|now rewrite nth_error_skipn]. Qed.

Lemma SV_in t q s v : t < types -> q < P -> s < P -> In v (SV t q s) <->
  exists k j, nth_error (owners t s) k = Some q /\ j < nv t /\ nth_error (cells t s) ((n t s + k) * nv t + j) = Some v.
Proof.
  intros Ht Hq Hs. destruct (cm_ok t Ht) as (Hok & Hc). unfold SV. rewrite nodes1_in, in_concat.
  destruct (Hc s Hs) as (_ & Eg & Eo & _ & _). destruct (Hc q Hq) as (_ & _ & _ & _ & El). destruct (cell_ghosts_ok t s Ht Hs) as (_ & Lg & Hg).
  destruct (ti_len _ _ _ _ _ _ _ _ Hin t s Ht Hs) as (L1 & _). split.
  - intros (l & Hl & Hv). apply in_map_iff in Hl as (g & <- & Hgo). apply crow_in in Hv as (j & Hj & Hv).
    apply (gof_in P (cm t) Hok s q g Hs Hq) in Hgo as (Hi & Ho). rewrite Eg in Hi. apply In_nth_error in Hi as (k & Hk).
    destruct (nth_error_lt (owners t s) k) as (o & Hko); [rewrite <- Lg; eapply nth_error_bound; eauto|].
    destruct (mo_owner _ _ Hok s k g o Hs) as (A1 & _ & A2); [now rewrite Eg|now rewrite Eo|].
    assert (o = q) by (eapply (owner_unique P (cm t) Hok); eauto). subst o. exists k, j. split; [exact Hko|]. split; [exact Hj|].
    destruct (nth_error_lt (original t s) (n t s + k)) as (x & Hx); [apply nth_error_bound in Hko; lia|].
    destruct (Hg k q x Hko Hx) as (_ & _ & c & Hcn & _ & Ec & Er). rewrite Hk in Ec. injection Ec as ->. rewrite El in Hv.
    replace (exscan (n t) q + c - exscan (n t) q) with c in Hv by lia. now rewrite Er.
  - intros (k & j & Hk & Hj & Hv). destruct (nth_error_lt (original t s) (n t s + k)) as (x & Hx); [apply nth_error_bound in Hk; lia|].
    destruct (Hg k q x Hk Hx) as (_ & _ & c & Hcn & _ & Ec & Er). exists (crow t q c). split.
    + apply in_map_iff. exists (exscan (n t) q + c). split; [rewrite El; f_equal; lia|]. apply (gof_in P (cm t) Hok s q _ Hs Hq).
      split; [rewrite Eg; eapply nth_error_In; eauto|]. destruct (mo_owner _ _ Hok s k (exscan (n t) q + c) q Hs) as (_ & _ & H); [now rewrite Eg|now rewrite Eo|exact H].
    + apply crow_in. exists j. split; [exact Hj|]. now rewrite <- Er.
Qed.

Lemma shared_ok t q : t < types -> q < P -> shared_vertices P pcx nbxc threads nv cells original owners t q = Some (map (SV t q) (im_dest (cm t q))).
Proof.
  intros Ht Hq. destruct (cm_ok t Ht) as (Hok & Hc). unfold shared_vertices. fold cm.
  rewrite (ghosts_exchange P (cm t) Hok q Hq). cbn [obind]. rewrite map_length. set (de := im_dest (cm t q)).
  assert (Hde : forall s, In s de -> s < P). { intros s Hs. apply (dest_in P (cm t) Hok q s Hq) in Hs. apply Hs. }
  assert (G : forall k s, nth_error de k = Some s ->
    (idx <- slice_at (concat (map (fun s => gof (cm t) s q) de)) (psums (map (fun s => length (gof (cm t) s q)) de)) k ;;
     rows <- omap (fun i => if (im_lo (cm t q) <=? i) && (i <? im_hi (cm t q)) then
                  slice (cells t q) ((i - im_lo (cm t q)) * nv t) ((i - im_lo (cm t q)) * nv t + nv t) else None) idx ;;
     Some (nodes1 (concat rows))) = Some (SV t q s)).
  { intros k s Hk. rewrite <- (map_map (fun s => gof (cm t) s q) (@length nat)). rewrite (slice_at_concat _ k (gof (cm t) s q)) by (rewrite nth_error_map_some, Hk; reflexivity).
    cbn [obind]. rewrite omap_map with (g := fun g => crow t q (g - im_lo (cm t q))); [reflexivity|].
    intros g Hg. assert (Hs : s < P) by (apply Hde; eapply nth_error_In; eauto). apply (gof_in P (cm t) Hok s q g Hs Hq) in Hg as (_ & Hg). unfold owns in Hg.
    destruct (Nat.leb_spec (im_lo (cm t q)) g), (Nat.ltb_spec g (im_hi (cm t q))); try lia. cbn [andb]. cbv zeta. apply slice_some.
    destruct (Hc q Hq) as (_ & _ & _ & Esz & _). unfold size_local in Esz. pose proof (len_cells t q Ht Hq) as Lc.
    split; [lia|]. split; [rewrite Lc; nia|]. unfold crow. f_equal. lia. }
  assert (G' : forall l a, (forall i s, nth_error l i = Some s -> nth_error de (a + i) = Some s) ->
     omap (fun k => idx <- slice_at (concat (map (fun s => gof (cm t) s q) de)) (psums (map (fun s => length (gof (cm t) s q)) de)) k ;;
     rows <- omap (fun i => if (im_lo (cm t q) <=? i) && (i <? im_hi (cm t q)) then
                  slice (cells t q) ((i - im_lo (cm t q)) * nv t) ((i - im_lo (cm t q)) * nv t + nv t) else None) idx ;;
     Some (nodes1 (concat rows))) (seq a (length l)) = Some (map (SV t q) l)).
  { induction l as [|s l IH]; intros a H; [reflexivity|]. cbn [length seq omap map].
    rewrite (G a s) by (rewrite <- (H 0 s eq_refl); f_equal; lia). cbn [obind]. rewrite IH; [reflexivity|].
    intros i s' Hi. rewrite <- (H (S i) s' Hi). f_equal. lia. }
  apply (G' de 0). auto.
Qed.

Lemma vertex_data_ok q v : q < P -> hov q v -> vertex_data P nbx pick types nv cells owners boundary q (stt q (rcv q)) v = Some (item v).
Proof.
  intros Hq Hv. unfold vertex_data. destruct (A_spec q Hq) as (Sa & Ia). unfold stt at 1 2. cbn [vs_g2l]. rewrite map_map. cbn [fst]. rewrite map_id.
  assert (HA : In v (A q)) by (apply Ia, hv_iff; now left). apply In_nth_error in HA as (i & Hi).
  rewrite (zsearch_nth (A q) i v Sa Hi). cbn [obind]. rewrite nth_error_map_some, Hi. cbn [option_map obind snd]. rewrite nowned_ok, offset_ok by lia.
  unfold loc. destruct (Nat.eqb_spec (own v) q) as [E|N].
  - cbn [obind]. assert (HO : In v (O q)) by (apply O_spec; auto). pose proof (ln_lt q v Hq HO) as Hl. destruct (Nat.ltb_spec (ln q v) (length (O q))); [|lia].
    unfold item, gnum. rewrite E. do 3 f_equal. apply Nat.add_comm.
  - destruct (rcv_spec q Hq) as (Hn & Hr).
    assert (Hb : In v (boundary q)). { destruct (in_dec Z.eq_dec v (boundary q)) as [H|H]; [exact H|]. exfalso. apply N. now apply own_inner. }
    assert (Hv' : In v (rcv q)) by (apply Hr; auto). apply In_nth_error in Hv' as (k & Hk). rewrite (zidx_nth _ (rcv q) k v Hn Hk). cbn [obind].
    destruct (Nat.ltb_spec (length (O q) + k) (length (O q))); [lia|]. unfold stt. cbn [vs_ghosts vs_owners].
    replace (length (O q) + k - length (O q)) with k by lia. rewrite !nth_error_map_some, Hk. reflexivity.
Qed.

Lemma SV_hov t q s v : t < types -> q < P -> s < P -> In v (SV t q s) -> hov q v.
Proof.
  intros Ht Hq Hs Hv. apply SV_in in Hv as (k & j & Hk & Hj & Hv); [|assumption|assumption|assumption].
  destruct (ti_len _ _ _ _ _ _ _ _ Hin t s Ht Hs) as (L1 & _). destruct (nth_error_lt (original t s) (n t s + k)) as (x & Hx); [apply nth_error_bound in Hk; lia|].
  destruct (ti_ghost _ _ _ _ _ _ _ _ Hin t s k q x Ht Hs Hk Hx) as (_ & _ & c & Hc & _ & Er). rewrite Er in Hv by exact Hj.
  exists t, c, j. auto.
Qed.

Lemma gx_send_ok t q : t < types -> q < P -> gx_send P nbx pcx nbxc pick threads types nv cells original owners boundary t q =
  Some (concat (map (fun s => map item (SV t q s)) (im_dest (cm t q))),
        (map (fun s => length (map item (SV t q s))) (im_dest (cm t q)), psums (map (fun s => length (map item (SV t q s))) (im_dest (cm t q))))).
Proof.
  intros Ht Hq. destruct (cm_ok t Ht) as (Hok & _). unfold gx_send. rewrite boundary_state_ok by exact Hq. cbn [obind]. rewrite shared_ok by assumption. cbn [obind].
  rewrite omap_map with (g := map item).
  - cbn [obind]. cbv zeta. rewrite !map_map. do 2 f_equal. assert (E : map (fun x => length (SV t q x)) (im_dest (cm t q)) = map (fun s => length (map item (SV t q s))) (im_dest (cm t q))).
    { apply map_ext. intro s. now rewrite map_length. }
    now rewrite E.
  - intros l Hl. apply in_map_iff in Hl as (s & <- & Hs). apply (dest_in P (cm t) Hok q s Hq) in Hs as (Hs & _).
    apply omap_map. intros v Hv. apply vertex_data_ok; [exact Hq|]. eapply SV_hov; eauto.
Qed.

Lemma exchange_ghost_ok t r : t < types -> r < P -> exists l,
  exchange_ghost_indexing P nbx pcx nbxc pick threads types nv cells original owners boundary t r = Some (map item l) /\
  forall v, In v l <-> In v (skipn (n t r * nv t) (cells t r)).
Proof.
  intros Ht Hr. destruct (cm_ok t Ht) as (Hok & Hc). unfold exchange_ghost_indexing. rewrite gx_send_ok by assumption. cbn [obind]. fold cm.
  rewrite (exchange_spec P _ _ _ (fun s d => map item (SV t s d)) r (graph_ok_sym _ _ _ (src_dest_graph P (cm t) Hok)) Hr).
  2:{ intros s Hs. apply gx_send_ok; [exact Ht|]. apply (ImSharedProofs.src_in P (cm t) Hok r s Hr) in Hs. apply (owner_lt P (cm t) Hok r s Hr Hs). }
  cbn [obind]. set (l := unique _ _).
  assert (HI : forall e, In e l <-> exists s v, In s (im_src (cm t r)) /\ In v (SV t s r) /\ e = item v).
  { intro e. unfold l. rewrite unique_in.
    - rewrite isort_in, in_concat. split.
      + intros (b & Hb & He). apply in_map_iff in Hb as (s & <- & Hs). apply in_map_iff in He as (v & <- & Hv). eauto.
      + intros (s & v & Hs & Hv & ->). exists (map item (SV t s r)). split; [apply (in_map (fun s => map item (SV t s r))); exact Hs|now apply in_map].
    - intros [a b] [c d]. unfold vdata_eqb. cbn [fst snd]. rewrite andb_true_iff, Z.eqb_eq. rewrite peqb_iff. split; [intros (-> & ->); reflexivity|]. intro E. injection E as -> ->. auto. }
  exists (map fst l). split.
  - f_equal. rewrite map_map. rewrite <- (map_id l) at 1. apply map_ext_in. intros e He. apply HI in He as (s & v & _ & _ & ->). reflexivity.
  - intro v. rewrite in_map_iff, skipn_in. destruct (Hc r Hr) as (_ & _ & Eo & _). split.
    + intros (e & <- & He). apply HI in He as (s & w & Hs & Hw & ->). cbn [item fst]. apply (ImSharedProofs.src_in P (cm t) Hok r s Hr) in Hs.
      destruct (owner_lt P (cm t) Hok r s Hr Hs) as (HsP & _). apply SV_in in Hw as (k & j & _ & _ & H); [|assumption|assumption|assumption].
      exists ((n t r + k) * nv t + j). split; [nia|exact H].
    + intros (i & Hi & H). destruct (ghost_cell t r i v Ht Hr Hi H) as (k & j & o & g & c & Hj & Ei & Ho & _ & HoP & _).
      exists (item v). split; [reflexivity|]. apply HI. exists o, v. split; [|split; [|reflexivity]].
      * apply (ImSharedProofs.src_in P (cm t) Hok r o Hr). rewrite Eo. eapply nth_error_In; eauto.
      * apply SV_in; [assumption|assumption|assumption|]. exists k, j. split; [exact Ho|]. split; [exact Hj|]. now rewrite <- Ei.
Qed.

Lemma ghost_state_ok r : r < P -> exists done, ghost_state P nbx pcx nbxc pick threads types nv cells original owners boundary r = Some (stt r done) /\
  NoDup done /\ forall v, In v done <-> In v (U r).
Proof.
  intro Hr. unfold ghost_state. rewrite split_ok by exact Hr. cbn [obind]. rewrite boundary_state_ok by exact Hr. cbn [obind].
  destruct (omap_ex (fun t => exchange_ghost_indexing P nbx pcx nbxc pick threads types nv cells original owners boundary t r)
    (fun t e => exists l, e = map item l /\ forall v, In v l <-> In v (skipn (n t r * nv t) (cells t r))) (seq 0 types)) as (bs & E & HF).
  { intros t Ht. apply in_seq in Ht. destruct (exchange_ghost_ok t r) as (l & E & H); [lia|exact Hr|]. exists (map item l). eauto. }
  rewrite E. cbn [obind].
  assert (G : exists l, concat bs = map item l /\ forall v, In v l <-> hgv r v).
  { assert (G : forall ts bs, Forall2 (fun t e => exists l, e = map item l /\ forall v, In v l <-> In v (skipn (n t r * nv t) (cells t r))) ts bs ->
       exists l, concat bs = map item l /\ forall v, In v l <-> exists t, In t ts /\ In v (skipn (n t r * nv t) (cells t r))).
    { induction 1 as [|t e ts bs' (l & -> & Hl) HF' (l' & E' & Hl')]; [exists []; split; [reflexivity|]; intro v; split; [intros []|intros (t & [] & _)]|].
      exists (l ++ l'). cbn [concat]. rewrite E', map_app. split; [reflexivity|]. intro v. rewrite in_app_iff, Hl, Hl'. split.
      - intros [H|(t' & Ht' & H)]; [exists t; split; [now left|exact H]|exists t'; split; [now right|exact H]].
      - intros (t' & [<-|Ht'] & H); [now left|right; eauto]. }
    destruct (G _ _ HF) as (l & E1 & E2). exists l. split; [exact E1|]. intro v. rewrite E2. unfold hgv. split; intros (t & Ht & H); exists t; (split; [|exact H]); [apply in_seq in Ht; lia|apply in_seq; lia]. }
  destruct G as (l & El & Hl). rewrite El. destruct (rcv_spec r Hr) as (Hn & HR). destruct (U_spec r Hr) as (_ & Iu).
  destruct (ghost_fold r l Hr (rcv r) Hn) as (done & Ed & H1 & H2 & H3 & H4).
  - intros v Hv. apply HR in Hv as (Hv & N). apply Iu. split; [|exact N]. apply hv_iff. left. eapply (ti_boundary _ _ _ _ _ _ _ _ Hin); eauto.
  - exists done. split; [exact Ed|]. split; [exact H1|]. intro v. split; [apply H2|]. intro Hv. apply Iu in Hv as Hv'. destruct Hv' as (Hh & N).
    apply hv_iff in Hh as [Hh|Hh]; [|apply H4; [now apply Hl|exact Hv]]. apply H3, HR. split; [|exact N].
    destruct (in_dec Z.eq_dec v (boundary r)) as [H|H]; [exact H|]. exfalso. apply N. now apply own_inner.
Qed.

(** ** The result *)
Variable nbxv : (nat -> list nat) -> nat -> list nat.
Hypothesis Hnbxv : nbx_oracle P nbxv.
Hypothesis Hthreads : forall r, r < P -> 1 <= threads r.

(** Local index of a vertex *)
Definition lidx (q : nat) (done : list Z) (v : Z) : nat := match loc q done v with Some l => l | None => 0 end.
Lemma loc_ok q done v : q < P -> NoDup done -> (forall v, In v done <-> In v (U q)) -> hv q v ->
  loc q done v = Some (lidx q done v) /\
  (own v = q /\ lidx q done v = ln q v /\ ln q v < length (O q) \/ own v <> q /\ exists k, nth_error done k = Some v /\ lidx q done v = length (O q) + k).
Proof.
  intros Hq Hn Hd Hv. unfold lidx, loc. destruct (Nat.eqb_spec (own v) q) as [E|N].
  - split; [reflexivity|]. left. split; [exact E|]. split; [reflexivity|]. apply ln_lt; [exact Hq|]. destruct (in_O q v Hq Hv) as (H & _). now rewrite E in H.
  - assert (Hi : In v done) by (apply Hd, U_spec; auto). apply In_nth_error in Hi as (k & Hk). rewrite (zidx_nth _ done k v Hn Hk). split; [reflexivity|]. right. eauto.
Qed.

Lemma convert_ok t q done : t < types -> q < P -> NoDup done -> (forall v, In v done <-> In v (U q)) ->
  convert_to_local_indexing (cells t q) (vs_g2l (stt q done)) = Some (map Some (map (lidx q done) (cells t q))).
Proof.
  intros Ht Hq Hn Hd. unfold convert_to_local_indexing, stt. cbn [vs_g2l]. rewrite map_map. rewrite map_map. cbn [fst]. rewrite map_id. destruct (A_spec q Hq) as (Sa & Ia).
  apply omap_map. intros v Hv. assert (Hh : hv q v) by (exists t; auto). destruct (loc_ok q done v Hq Hn Hd Hh) as (El & _). rewrite <- El.
  apply Ia in Hh as HA. apply In_nth_error in HA as (i & Hi). destruct (is_identity (A q)) eqn:Ei.
  - pose proof Hi as Hi'. apply (is_identity_nth (A q) Sa Ei) in Hi' as (Ev & Hb). rewrite map_length.
    destruct (Z.leb_spec 0 v), (Z.ltb_spec v (Z.of_nat (length (A q)))); try lia. cbn [andb]. rewrite nth_error_map_some.
    replace (Z.to_nat v) with i by lia. rewrite Hi. reflexivity.
  - apply zfind_all.
    + exists (loc q done v). apply in_map_iff. exists v. split; [reflexivity|]. now apply Ia.
    + intros o Ho. apply in_map_iff in Ho as (w & E & _). congruence.
Qed.

Let gst := ghost_state P nbx pcx nbxc pick threads types nv cells original owners boundary.
Let no := nowned P nbx pick types nv cells owners boundary.
Let vg := vghosts P nbx pcx nbxc pick threads types nv cells original owners boundary.
Let vo := vowners P nbx pcx nbxc pick threads types nv cells original owners boundary.

Lemma vg_vo_ok r : r < P -> exists done, gst r = Some (stt r done) /\ NoDup done /\ (forall v, In v done <-> In v (U r)) /\ vg r = map gnum done /\ vo r = map own done.
Proof.
  intro Hr. destruct (ghost_state_ok r Hr) as (done & E & Hn & Hd). exists done. unfold gst, vg, vo, vghosts, vowners. rewrite E. unfold stt. cbn [vs_ghosts vs_owners]. auto.
Qed.
Lemma lsum_no q : q <= P -> lsum (map no (seq 0 q)) = exscan (fun s => length (O s)) q.
Proof. intro Hq. unfold exscan. f_equal. apply map_ext_in. intros s Hs. apply in_seq in Hs. apply nowned_ok. lia. Qed.
Lemma gnum_range r v : r < P -> hv r v -> exscan (fun s => length (O s)) (own v) <= gnum v < exscan (fun s => length (O s)) (S (own v)).
Proof. intros Hr Hv. destruct (in_O r v Hr Hv) as (H1 & H2). pose proof (ln_lt _ _ H2 H1) as L. rewrite exscan_S. unfold gnum. lia. Qed.

Lemma vinputs : inputs_ok P no vg vo.
Proof.
  intros r Hr. destruct (vg_vo_ok r Hr) as (done & _ & Hn & Hd & -> & ->). destruct (U_spec r Hr) as (_ & Iu). rewrite !map_length. split; [reflexivity|]. split.
  - assert (G : forall l, NoDup l -> (forall v, In v l -> hv r v) -> NoDup (map gnum l)).
    { induction 1 as [|v l Hv Hl IH]; intro H; [constructor|]. cbn [map]. constructor; [|apply IH; intros; apply H; now right].
      intro Hi. apply in_map_iff in Hi as (w & E & Hw). apply Hv. rewrite <- (gnum_inj r r w v Hr Hr); [exact Hw|apply H; now right|apply H; now left|exact E]. }
    apply G; [exact Hn|]. intros v Hv. apply Hd, Iu in Hv. apply Hv.
  - intros k g o Hg Ho. rewrite nth_error_map_some in Hg, Ho. destruct (nth_error done k) as [v|] eqn:Ek; [|discriminate]. cbn in Hg, Ho. injection Hg as <-. injection Ho as <-.
    apply nth_error_In, Hd, Iu in Ek as (Hv & N). destruct (own_hv r v Hr Hv) as (A1 & _). split; [exact A1|]. split; [exact N|].
    rewrite !lsum_no by lia. now apply (gnum_range r).
Qed.

Lemma topology_ok : exists num vmap cmap conn,
  (forall r, r < P -> create_topology P nbx pcx nbxc nbxv pick threads types nv cells original owners boundary r =
     Some (vmap r, map (fun t => (cmap t r, map Some (conn t r))) (seq 0 types))) /\
  topology_result P types nv n cells original num vmap cmap conn.
Proof.
  set (vm := built P nbxv no vg vo).
  set (conn := fun t r => match gst r with Some st => match convert_to_local_indexing (cells t r) (vs_g2l st) with
     Some l => map (fun o => match o with Some x => x | None => 0 end) l | None => [] end | None => [] end).
  exists gnum, vm, cm, conn. destruct (built_ok P nbxv Hnbxv _ _ _ vinputs HP) as (Hvok & Hvb).
  assert (Hconn : forall t r done, t < types -> r < P -> gst r = Some (stt r done) -> NoDup done -> (forall v, In v done <-> In v (U r)) -> conn t r = map (lidx r done) (cells t r)).
  { intros t r done Ht Hr E Hn Hd. unfold conn. rewrite E, (convert_ok t r done) by assumption. rewrite map_map. apply map_id. }
  assert (Hvlo : forall r, r < P -> im_lo (vm r) = exscan (fun s => length (O s)) r /\ size_local (vm r) = length (O r)).
  { intros r Hr. split.
    - unfold vm. rewrite (lo_is_sum P _ Hvok r Hr). unfold exscan. f_equal. apply map_ext_in. intros s Hs. apply in_seq in Hs. destruct (Hvb s) as (_ & _ & _ & H & _); [lia|]. rewrite H. apply nowned_ok. lia.
    - destruct (Hvb r Hr) as (_ & _ & _ & H & _). unfold vm. rewrite H. now apply nowned_ok. }
  assert (Hl2g : forall r done v, r < P -> gst r = Some (stt r done) -> NoDup done -> (forall v, In v done <-> In v (U r)) -> hv r v ->
     local_to_global (vm r) (lidx r done v) = Some (gnum v)).
  { intros r done v Hr E Hn Hd Hv. destruct (Hvlo r Hr) as (El & Es). unfold local_to_global. rewrite El, Es. destruct (loc_ok r done v Hr Hn Hd Hv) as (_ & [(Eo & -> & Hlt)|(No & k & Hk & ->)]).
    - destruct (Nat.ltb_spec (ln r v) (length (O r))); [|lia]. unfold gnum. rewrite Eo. reflexivity.
    - destruct (Nat.ltb_spec (length (O r) + k) (length (O r))); [lia|]. replace (length (O r) + k - length (O r)) with k by lia.
      destruct (Hvb r Hr) as (_ & Hg & _). unfold vm. rewrite Hg. destruct (vg_vo_ok r Hr) as (done' & E' & _ & _ & Eg & _). rewrite E in E'. injection E' as E'.
      rewrite Eg. assert (Em : map gnum done' = map gnum done) by (unfold gst in *; congruence). rewrite Em, nth_error_map_some, Hk. reflexivity. }
  assert (Hcn : forall t r c g, t < types -> r < P -> nth_error (original t r) c = Some g ->
     exists o k, o < P /\ k < n t o /\ nth_error (original t o) k = Some g /\ local_to_global (cm t r) c = Some (exscan (n t) o + k)).
  { intros t r c g Ht Hr Hg. destruct (cm_ok t Ht) as (Hok & Hc). destruct (Hc r Hr) as (_ & Eg & _ & Es & El). unfold local_to_global. rewrite Es, El.
    destruct (ti_len _ _ _ _ _ _ _ _ Hin t r Ht Hr) as (L1 & _). pose proof (nth_error_bound _ _ _ Hg) as Hb. destruct (Nat.ltb_spec c (n t r)) as [L|L].
    - exists r, c. auto.
    - rewrite Eg. destruct (nth_error_lt (owners t r) (c - n t r)) as (o & Ho); [lia|]. destruct (cell_ghosts_ok t r Ht Hr) as (_ & _ & H).
      destruct (H (c - n t r) o g Ho) as (A1 & _ & k & A2 & A3 & A4 & _); [replace (n t r + (c - n t r)) with c by lia; exact Hg|]. exists o, k. auto. }
  split.
  - intros r Hr. unfold create_topology. pose proof (Hthreads r Hr) as Hthr. destruct (Nat.ltb_spec (threads r) 1); [lia|].
    destruct (vg_vo_ok r Hr) as (done & E & Hn & Hd & _ & _). unfold gst in E. rewrite E. cbn [obind].
    rewrite omap_map with (g := fun t => (cm t r, map Some (conn t r))).
    + cbn [obind]. destruct (Hvb r Hr) as (Em & _). unfold no, vg, vo in Em. rewrite Em. reflexivity.
    + intros t Ht. apply in_seq in Ht. assert (Ht' : t < types) by lia. destruct (cm_ok t Ht') as (_ & Hc). destruct (Hc r Hr) as (-> & _). cbn [obind].
      rewrite (convert_ok t r done) by assumption. cbn [obind]. rewrite (Hconn t r done) by assumption. reflexivity.
  - constructor.
    + exact Hvok.
    + intros t Ht. apply (cm_ok t Ht).
    + intros t r Ht Hr. destruct (cm_ok t Ht) as (_ & Hc). destruct (Hc r Hr) as (_ & Eg & _ & Es & _). split; [exact Es|]. unfold num_ghosts. rewrite Eg.
      destruct (cell_ghosts_ok t r Ht Hr) as (_ & -> & _). apply (ti_len _ _ _ _ _ _ _ _ Hin t r Ht Hr).
    + intros t r s c d g h Ht Hr Hs Hg Hh. destruct (Hcn t r c g Ht Hr Hg) as (o & k & A1 & A2 & A3 & A4). destruct (Hcn t s d h Ht Hs Hh) as (o' & k' & B1 & B2 & B3 & B4).
      exists (exscan (n t) o + k), (exscan (n t) o' + k'). split; [exact A4|]. split; [exact B4|]. split.
      * intro E. destruct (exscan_unique _ _ _ _ _ A2 B2 E) as (E1 & E2). subst o' k'. congruence.
      * intro E. subst h. pose proof (ti_owner _ _ _ _ _ _ _ _ Hin t o o' k k' g Ht A1 B1 A2 B2 A3 B3) as E. subst o'. f_equal.
        eapply NoDup_nth_error_inj; [apply (ti_once _ _ _ _ _ _ _ _ Hin t o Ht A1)|exact A3|exact B3].
    + intros t r Ht Hr. destruct (vg_vo_ok r Hr) as (done & E & Hn & Hd & _). rewrite (Hconn t r done) by assumption. apply map_length.
    + intros t r j v l Ht Hr Hv Hl. destruct (vg_vo_ok r Hr) as (done & E & Hn & Hd & _). rewrite (Hconn t r done) in Hl by assumption.
      rewrite nth_error_map_some, Hv in Hl. cbn in Hl. injection Hl as <-. apply Hl2g; [assumption|assumption|assumption|assumption|]. exists t. split; [exact Ht|eapply nth_error_In; eauto].
    + intros r v Hr Hv Ho. unfold owns in Ho. destruct (Hvlo r Hr) as (El & Es). unfold size_local in Es. pose proof (gnum_range r v Hr Hv) as G.
      destruct (own_hv r v Hr Hv) as (A1 & A2). assert (Eo : own v = r).
      { destruct (Nat.lt_trichotomy (own v) r) as [H|[H|H]]; [|exact H|].
        - pose proof (exscan_mono (fun s => length (O s)) (S (own v)) r H). lia.
        - pose proof (exscan_mono (fun s => length (O s)) (S r) (own v) H) as M. rewrite exscan_S in M. lia. }
      rewrite Eo in A2. exact A2.
    + intros r s v w Hr Hs Hv Hw E. exact (gnum_inj r s v w Hr Hs Hv Hw E).
    + intros r i Hr. assert (Esz : im_size_global (vm r) = exscan (fun s => length (O s)) P).
      { destruct (Hvb r Hr) as (_ & _ & _ & _ & H). unfold vm. rewrite H. now apply lsum_no. }
      rewrite Esz. split.
      * intro Hi. destruct (exscan_split _ _ _ Hi) as (q & y & Hq & Hy & ->). destruct (ln_onto q y Hq Hy) as (v & Hv & <-).
        destruct (O_spec q Hq) as (_ & Io). apply Io in Hv as (Hv & Eo). exists q, v. split; [exact Hq|]. split; [apply hv_iff; now left|]. unfold gnum. now rewrite Eo.
      * intros (s & v & Hs & Hv & <-). destruct (in_O s v Hs Hv) as (H1 & H2). unfold gnum. apply exscan_bound; [exact H2|now apply ln_lt].
    + intros r l Hr Hl. destruct (vg_vo_ok r Hr) as (done & E & Hn & Hd & Eg & _). destruct (Hvlo r Hr) as (_ & Es). destruct (Hvb r Hr) as (_ & Hg & _).
      rewrite Es in Hl. unfold num_ghosts, vm in Hl. rewrite Hg, Eg, map_length in Hl.
      assert (G : exists v, hv r v /\ lidx r done v = l).
      { destruct (U_spec r Hr) as (_ & Iu). destruct (Nat.lt_ge_cases l (length (O r))) as [L|L].
        - destruct (ln_onto r l Hr L) as (v & Hv & El). destruct (O_spec r Hr) as (_ & Io). apply Io in Hv as (Hv & Eo).
          exists v. split; [apply hv_iff; now left|]. unfold lidx, loc. rewrite Eo, Nat.eqb_refl. exact El.
        - destruct (nth_error_lt done (l - length (O r))) as (v & Hv); [lia|]. apply nth_error_In in Hv as Hv'. apply Hd, Iu in Hv' as (Hh & N).
          exists v. split; [exact Hh|]. unfold lidx, loc. destruct (Nat.eqb_spec (own v) r); [contradiction|]. rewrite (zidx_nth _ done _ v Hn Hv). lia. }
      destruct G as (v & (t & Ht & Hv) & <-). exists t. split; [exact Ht|]. rewrite (Hconn t r done) by assumption. now apply in_map.
Qed.
End Own.

(** ** Without the section *)
Theorem create_topology_ok P nbx pcx nbxc nbxv pick threads types nv n cells original owners boundary :
  0 < P -> nbx_oracle P nbx -> nbx_oracle P pcx -> nbx_oracle P nbxc -> nbx_oracle P nbxv ->
  (forall r i m, 1 < m -> pick r i m < m) -> (forall r, r < P -> 1 <= threads r) ->
  topology_input P types nv n cells original owners boundary ->
  (forall r v, r < P -> In v (boundary r) -> (v < 2 ^ 31)%Z) ->
  exists num vmap cmap conn,
    (forall r, r < P -> create_topology P nbx pcx nbxc nbxv pick threads types nv cells original owners boundary r =
       Some (vmap r, map (fun t => (cmap t r, map Some (conn t r))) (seq 0 types))) /\
    topology_result P types nv n cells original num vmap cmap conn.
Proof.
  intros HP H1 H2 H3 H4 Hp Ht Hin Hw.
  destruct (sharing_ok P nbx pick boundary HP H1 Hp (ti_sorted _ _ _ _ _ _ _ _ Hin)) as (so & Hso).
  { intros r v Hr Hv. split; [|now apply (Hw r)]. destruct (ti_boundary _ _ _ _ _ _ _ _ Hin r v Hr Hv) as (t & c & j & Ht' & _ & _ & H).
    eapply (ti_nonneg _ _ _ _ _ _ _ _ Hin t r); [exact Ht'|exact Hr|eapply nth_error_In; eauto]. }
  apply (topology_ok P nbx pick types nv n cells original owners boundary Hin so (fun r => match determine_sharing_ranks P nbx pick boundary r with Some l => l | None => [] end)); auto.
  intros r Hr. destruct (Hso r Hr) as (rows & -> & HF). auto.
Qed.
