(** The dual graph (C60). *)
From Verif Require Import Base BaseProofs BucketProofs Algo AlgoProofs World WorldProofs Sort SortSpec SortProofs IndexMapProofs
  CellTypes DualGraph DualGraphSpec DualRows DualPairs DualMatch DualStorage DualLocal DualLocalGraph DualPlan DualSend.
Open Scope nat_scope.

Lemma finite_choice {A} (R : nat -> A -> Prop) P (d : A) : (forall q, q < P -> exists x, R q x) -> exists f, forall q, q < P -> R q (f q).
Proof.
  induction P as [|P IH]; intro H; [exists (fun _ => d); intros; lia|]. destruct IH as (f & Hf); [intros; apply H; lia|]. destruct (H P) as (x & Hx); [lia|].
  exists (fun q => if q =? P then x else f q). intros q Hq. destruct (Nat.eqb_spec q P) as [->|N]; [exact Hx|apply Hf; lia].
Qed.

(** ** Facets of one rank by position *)
Definition o_idx (O : list occ) (p : nat) : nat := snd (fst (o_at O p)).
Section Rank.
Variables (ts : list cell_type) (arrs : list (list Z)).
Hypothesis Hin : input_ok ts arrs.
Notation O := (all_occs ts arrs).
Lemma has_at p : p < length O -> has_facet ts arrs (o_cell O p) (o_idx O p) (o_verts O p).
Proof.
  intro Hp. apply occs_in. unfold o_cell, o_idx, o_verts. replace ((fst (fst (o_at O p)), snd (fst (o_at O p))), snd (o_at O p)) with (o_at O p) by (destruct (o_at O p) as ((a, b), c); reflexivity). now apply nth_In.
Qed.
Lemma at_ex c i vs : has_facet ts arrs c i vs -> exists p, p < length O /\ o_cell O p = c /\ o_idx O p = i /\ o_verts O p = vs.
Proof.
  intro H. apply occs_in in H. apply In_nth with (d := ((0, 0), [])) in H as (p & Hp & E). exists p. split; [exact Hp|]. unfold o_cell, o_idx, o_verts, o_at. rewrite E. auto.
Qed.
Lemma at_inj p q : p < length O -> q < length O -> o_cell O p = o_cell O q -> o_idx O p = o_idx O q -> p = q.
Proof.
  intros Hp Hq E1 E2. pose proof (occs_NoDup ts arrs (in_len ts arrs Hin)) as H. rewrite NoDup_nth_error in H. apply H; [now rewrite map_length|].
  rewrite !nth_error_map_some, (nth_error_nth' O ((0, 0), []) Hp), (nth_error_nth' O ((0, 0), []) Hq). cbn [option_map]. f_equal. fold (o_at O p) (o_at O q). unfold o_cell, o_idx in *.
  destruct (fst (o_at O p)), (fst (o_at O q)); cbn in *; congruence.
Qed.
Lemma at_lt p : p < length O -> o_cell O p < num_cells ts arrs.
Proof. intro Hp. pose proof (proj2 (occs_in ts arrs _ _ _) (has_at p Hp)) as H. exact (occ_cell_lt ts arrs (in_len ts arrs Hin) _ _ _ H). Qed.
Lemma at_verts p : p < length O -> o_verts O p <> [] /\ nonneg (o_verts O p) /\ Forall (fun v => (0 <= v < 2 ^ 63 - 1)%Z) (o_verts O p).
Proof.
  intro Hp. assert (H : In (o_at O p) O) by (now apply nth_In). destruct (occ_verts ts arrs Hin _ H) as (H1 & H2 & _). split; [exact H1|]. split; [|exact H2]. eapply Forall_impl; [|exact H2]. cbv beta. intros. lia.
Qed.

(** Facets with the same vertices *)
Definition same_at (p : nat) : list nat := filter (fun q => zrow_eqb (isort Z.leb (o_verts O p)) (isort Z.leb (o_verts O q))) (seq 0 (length O)).
Lemma same_at_in p q : In q (same_at p) <-> q < length O /\ Permutation (o_verts O p) (o_verts O q).
Proof.
  unfold same_at. rewrite filter_In, in_seq, zrow_eqb_eq. split; intros (H1 & H2); (split; [lia|]).
  - transitivity (isort Z.leb (o_verts O p)); [apply isort_perm|]. rewrite H2. symmetry. apply isort_perm.
  - now apply zsort_perm_eq.
Qed.
Lemma same_at_NoDup p : NoDup (same_at p). Proof. apply NoDup_filter, seq_NoDup. Qed.

Variables (max : option nat) (ld : ldual) (D : list (nat * nat)) (us : list nat).
Hypothesis HR : local_result O (num_cells ts arrs) max ld D us.
Notation kvl := (map (fun pq => (o_cell O (fst pq), o_cell O (snd pq))) D).

Lemma local_neighbours c : neighbours ts arrs c (vals c kvl).
Proof.
  exists (map (fun pq => (o_idx O (fst pq), (o_cell O (snd pq), o_idx O (snd pq)))) (filter (fun pq => o_cell O (fst pq) =? c) D)).
  assert (HD : forall p q, In (p, q) (filter (fun pq => o_cell O (fst pq) =? c) D) <-> o_cell O p = c /\ p <> q /\ p < length O /\ q < length O /\ Permutation (o_verts O p) (o_verts O q)).
  { intros p q. rewrite filter_In, (lr_in _ _ _ _ _ _ HR). cbn [fst]. rewrite Nat.eqb_eq. tauto. }
  split; [|split].
  - apply NoDup_map_i; [|apply NoDup_filter; exact (lr_D _ _ _ _ _ _ HR)]. intros (p, q) (p', q') H H' E. apply HD in H as (Ec & _ & Hp & Hq & _). apply HD in H' as (Ec' & _ & Hp' & Hq' & _).
    cbn [fst snd] in E. injection E as E1 E2 E3. f_equal; apply at_inj; auto. congruence.
  - intros i d j. rewrite in_map_iff. split.
    + intros ((p, q) & E & H). cbn [fst snd] in E. injection E as <- <- <-. apply HD in H as (Ec & N & Hp & Hq & S). split.
      * intro E. injection E as E1 E2. apply N. apply at_inj; auto. congruence.
      * exists (o_verts O p), (o_verts O q). rewrite <- Ec. split; [now apply has_at|]. split; [now apply has_at|exact S].
    + intros (N & vs & vs' & H1 & H2 & S). destruct (at_ex _ _ _ H1) as (p & Hp & E1 & E2 & E3). destruct (at_ex _ _ _ H2) as (q & Hq & F1 & F2 & F3). exists (p, q). cbn [fst snd]. split; [congruence|].
      apply HD. split; [exact E1|]. split; [intros ->; congruence|]. rewrite E3, F3. auto.
  - unfold vals. rewrite map_map. cbn [fst snd].
    assert (G : forall l, map snd (filter (fun kv => fst kv =? c) (map (fun pq : nat * nat => (o_cell O (fst pq), o_cell O (snd pq))) l)) = map (fun x => o_cell O (snd x)) (filter (fun pq => o_cell O (fst pq) =? c) l)).
    { induction l as [|x l IH]; [reflexivity|]. cbn [map filter fst]. destruct (o_cell O (fst x) =? c); cbn [map snd]; [now rewrite IH|exact IH]. }
    rewrite G. reflexivity.
Qed.

Lemma local_unmatched : unmatched_facets ts arrs max (ld_width ld) (ld_facets ld) (ld_cells ld).
Proof.
  assert (Hus : forall p, In p us -> p < length O) by (intros p H; apply (lr_us_in _ _ _ _ _ _ HR) in H; tauto).
  exists (map (fun p => (o_cell O p, o_idx O p)) us). split; [|split; [|split]].
  - apply NoDup_map_i; [|exact (lr_us _ _ _ _ _ _ HR)]. intros p q Hp Hq E. injection E as E1 E2. apply at_inj; auto.
  - intros c i. rewrite in_map_iff. split.
    + intros (p & E & Hp). injection E as <- <-. exists (o_verts O p). split; [apply has_at; auto|]. apply (lr_us_in _ _ _ _ _ _ HR) in Hp as (Hp & Hf). unfold few in Hf. destruct max as [m|]; [|exact I].
      destruct Hf as (l & Nl & Hl & Hm). exists (map (fun q => (o_cell O q, o_idx O q)) l). split; [|split; [|now rewrite map_length]].
      * apply NoDup_map_i; [|exact Nl]. intros a b Ha Hb E. apply Hl in Ha as (Ha & _). apply Hl in Hb as (Hb & _). injection E as E1 E2. apply at_inj; auto.
      * intros d j. rewrite in_map_iff. split.
        -- intros (q & E & Hq). injection E as <- <-. apply Hl in Hq as (Hq & S). exists (o_verts O q). split; [now apply has_at|exact S].
        -- intros (vs' & H & S). destruct (at_ex _ _ _ H) as (q & Hq & E1 & E2 & E3). exists q. split; [congruence|]. apply Hl. rewrite E3. auto.
    + intros (vs & H & Hf). destruct (at_ex _ _ _ H) as (p & Hp & E1 & E2 & E3). exists p. split; [congruence|]. apply (lr_us_in _ _ _ _ _ _ HR). split; [exact Hp|].
      unfold few. destruct max as [m|]; [|exact I]. destruct Hf as (l & Nl & Hl & Hm). exists (same_at p). split; [apply same_at_NoDup|]. split; [apply same_at_in|].
      apply Nat.le_lt_trans with (length l); [|exact Hm]. rewrite <- (map_length (fun q => (o_cell O q, o_idx O q))). apply NoDup_incl_length.
      * apply NoDup_map_i; [|apply same_at_NoDup]. intros a b Ha Hb E. apply same_at_in in Ha as (Ha & _). apply same_at_in in Hb as (Hb & _). injection E as F1 F2. apply at_inj; auto.
      * intros (d, j) Hd. apply in_map_iff in Hd as (q & E & Hq). injection E as <- <-. apply same_at_in in Hq as (Hq & S). apply Hl. exists (o_verts O q). rewrite E3 in S. split; [now apply has_at|exact S].
  - rewrite (lr_cells _ _ _ _ _ _ HR), map_map. reflexivity.
  - rewrite (lr_facets _ _ _ _ _ _ HR). assert (G : forall l, (forall p, In p l -> p < length O) -> Forall2 (fun ci row => exists vs s, has_facet ts arrs (fst ci) (snd ci) vs /\ Permutation vs s /\ StronglySorted Z.le s /\
        length s <= ld_width ld /\ row = s ++ repeat (-1)%Z (ld_width ld - length s)) (map (fun p => (o_cell O p, o_idx O p)) l) (map (fun p => fkey (ld_width ld) (o_verts O p)) l)).
    { induction l as [|p l IH]; intro Hl; [constructor|]. cbn [map]. constructor; [|apply IH; intros; apply Hl; now right]. pose proof (Hl p (or_introl eq_refl)) as Hp.
      exists (o_verts O p), (isort Z.leb (o_verts O p)). cbn [fst snd]. split; [now apply has_at|]. split; [apply isort_perm|]. split; [|split; [|reflexivity]].
      - eapply SS_impl_in; [|apply (isort_sorted _ Z.leb zleb_total zleb_trans)]. cbv beta. intros a b _ _. apply Z.leb_le.
      - rewrite isort_length. apply (lr_width _ _ _ _ _ _ HR). now apply nth_In. }
    apply G. exact Hus.
Qed.
End Rank.

(** ** Serial *)
Theorem serial_ok nbx sched tsort ts arrs max threads :
  input_ok (ts 0) (arrs 0) -> (forall j l, Permutation (sched 0 j l) l) -> sorts_facets (tsort 0) -> 0 < threads 0 ->
  (N.of_nat (num_facets (ts 0%nat) (arrs 0%nat)) < 2 ^ 63)%N ->
  exists rows, build_dual_graph 1 nbx sched tsort ts arrs max threads 0 = Some (psums (map (@length nat) rows), concat rows) /\
    length rows = num_cells (ts 0) (arrs 0) /\
    forall c row, nth_error rows c = Some row -> neighbours (ts 0) (arrs 0) c row.
Proof.
  intros Hi Hs Ht Hth Hn. destruct (local_ok (ts 0) (arrs 0) Hi (sched 0) (tsort 0) (threads 0) max Hs Ht Hth Hn) as (ld & D & us & E & R).
  set (kvl := map (fun pq => (o_cell (all_occs (ts 0) (arrs 0)) (fst pq), o_cell (all_occs (ts 0) (arrs 0)) (snd pq))) D).
  exists (map (fun c => vals c kvl) (seq 0 (num_cells (ts 0) (arrs 0)))). unfold build_dual_graph, compute_nonlocal_dual_graph. cbn [Nat.eqb]. rewrite E. cbn [obind].
  rewrite (lr_offsets _ _ _ _ _ _ R), (lr_data _ _ _ _ _ _ R), map_map. split; [reflexivity|]. split; [now rewrite map_length, seq_length|].
  intros c row Hc. pose proof (nth_error_bound _ _ _ Hc) as B. rewrite map_length, seq_length in B. rewrite nth_error_map_some, nth_error_seq in Hc by exact B. cbn [option_map plus] in Hc. injection Hc as <-.
  exact (local_neighbours _ _ Hi _ _ _ _ R c).
Qed.

(** ** build_local_dual_graph *)
Theorem local_graph_ok sched tsort ts arrs max threads :
  input_ok ts arrs -> (forall j l, Permutation (sched j l) l) -> sorts_facets tsort -> 0 < threads ->
  (N.of_nat (num_facets ts arrs) < 2 ^ 63)%N ->
  exists ld rows, build_local_dual_graph sched tsort ts arrs max threads = Some ld /\
    ld_offsets ld = psums (map (@length nat) rows) /\ ld_data ld = concat rows /\ length rows = num_cells ts arrs /\
    (forall c row, nth_error rows c = Some row -> neighbours ts arrs c row) /\
    unmatched_facets ts arrs max (ld_width ld) (ld_facets ld) (ld_cells ld).
Proof.
  intros Hi Hs Ht Hth Hn. destruct (local_ok ts arrs Hi sched tsort threads max Hs Ht Hth Hn) as (ld & D & us & E & R).
  set (kvl := map (fun pq => (o_cell (all_occs ts arrs) (fst pq), o_cell (all_occs ts arrs) (snd pq))) D).
  exists ld, (map (fun c => vals c kvl) (seq 0 (num_cells ts arrs))). split; [exact E|].
  rewrite (lr_offsets _ _ _ _ _ _ R), (lr_data _ _ _ _ _ _ R), map_map. split; [reflexivity|]. split; [reflexivity|]. split; [now rewrite map_length, seq_length|]. split.
  - intros c row Hc. pose proof (nth_error_bound _ _ _ Hc) as B. rewrite map_length, seq_length in B. rewrite nth_error_map_some, nth_error_seq in Hc by exact B. cbn [option_map plus] in Hc. injection Hc as <-.
    exact (local_neighbours _ _ Hi _ _ _ _ R c).
  - exact (local_unmatched _ _ Hi _ _ _ _ R).
Qed.

(** ** Parallel *)
Section World.
Variables (P : nat) (nbx : (nat -> list nat) -> nat -> list nat) (sched : nat -> nat -> list (nat * frow) -> list (nat * frow)) (tsort : nat -> list (list Z) -> list nat).
Variables (ts : nat -> list cell_type) (arrs : nat -> list (list Z)) (max : option nat) (threads : nat -> nat).
Hypothesis HP : 1 < P.
Hypothesis Hnbx : nbx_oracle P nbx.
Hypothesis Hin : forall q, q < P -> input_ok (ts q) (arrs q).
Hypothesis Hs : forall q j l, q < P -> Permutation (sched q j l) l.
Hypothesis Ht : forall q, q < P -> sorts_facets (tsort q).
Hypothesis Hth : forall q, q < P -> 0 < threads q.
Hypothesis Hn : (N.of_nat (lsum (map (fun q => num_facets (ts q) (arrs q)) (seq 0%nat P))) < 2 ^ 63)%N.
Hypothesis Hmax : match max with None => True | Some m => shared_by_at_most P ts arrs m end.

Notation O q := (all_occs (ts q) (arrs q)).
Notation nc q := (num_cells (ts q) (arrs q)).
Notation fc q := (first_cell ts arrs q).

Lemma lsum_map_ge (f : nat -> nat) n q : q < n -> f q <= lsum (map f (seq 0 n)).
Proof.
  clear. intro H. replace n with (q + S (n - q - 1)) by lia. rewrite seq_app, map_app, lsum_app. cbn [seq map plus]. rewrite lsum_cons. lia.
Qed.
Lemma fc_S q : fc (S q) = fc q + nc q.
Proof. unfold first_cell. rewrite seq_S, map_app, lsum_app. cbn [map plus]. rewrite lsum_cons, lsum_nil. lia. Qed.
Lemma fc_mono q q' : q <= q' -> fc q <= fc q'.
Proof. intro H. induction H as [|q' H IH]; [lia|]. rewrite fc_S. lia. Qed.
Lemma fc_inj q c q' c' : c < nc q -> c' < nc q' -> fc q + c = fc q' + c' -> q = q' /\ c = c'.
Proof.
  intros Hc Hc' E. destruct (Nat.lt_trichotomy q q') as [H|[H|H]].
  - pose proof (fc_mono (S q) q' H) as M. rewrite fc_S in M. lia.
  - subst q'. lia.
  - pose proof (fc_mono (S q') q H) as M. rewrite fc_S in M. lia.
Qed.

(** A facet that another rank also has is sent to the post office. *)
Lemma few_shared q p q' p' : q < P -> q' < P -> q <> q' -> p < length (O q) -> p' < length (O q') -> Permutation (o_verts (O q) p) (o_verts (O q') p') -> few (O q) max p.
Proof.
  intros Hq Hq' N Hp Hp' S. unfold few. destruct max as [m|] eqn:Em; [|exact I]. exists (same_at (ts q) (arrs q) p). split; [apply same_at_NoDup|]. split; [apply same_at_in|].
  set (gl := fun z => (fc q + o_cell (O q) z, o_idx (O q) z)).
  specialize (Hmax (o_verts (O q) p) ((fc q' + o_cell (O q') p', o_idx (O q') p') :: map gl (same_at (ts q) (arrs q) p))).
  cbn [length] in Hmax. rewrite map_length in Hmax. apply Hmax; clear Hmax.
  - constructor.
    + intro H. apply in_map_iff in H as (z & E & Hz). apply same_at_in in Hz as (Hz & _). unfold gl in E. injection E as E _.
      apply N. exact (proj1 (fc_inj q (o_cell (O q) z) q' (o_cell (O q') p') (at_lt _ _ (Hin q Hq) z Hz) (at_lt _ _ (Hin q' Hq') p' Hp') E)).
    + apply NoDup_map_i; [|apply same_at_NoDup]. intros a b Ha Hb E. apply same_at_in in Ha as (Ha & _). apply same_at_in in Hb as (Hb & _). unfold gl in E. injection E as E1 E2.
      apply (at_inj (ts q) (arrs q) (Hin q Hq)); auto. lia.
  - intros g i [E|H].
    + injection E as <- <-. exists (o_verts (O q') p'). split; [|exact S]. exists q', (o_cell (O q') p'). split; [exact Hq'|]. split; [reflexivity|]. now apply has_at.
    + apply in_map_iff in H as (z & E & Hz). apply same_at_in in Hz as (Hz & Sz). unfold gl in E. injection E as <- <-. exists (o_verts (O q) z). split; [|exact Sz].
      exists q, (o_cell (O q) z). split; [exact Hq|]. split; [reflexivity|]. now apply has_at.
Qed.

Let L (q : nat) := build_local_dual_graph (sched q) (tsort q) (ts q) (arrs q) max (threads q).
Lemma locals : exists ld D us, forall q, q < P -> L q = Some (ld q) /\ local_result (O q) (nc q) max (ld q) (D q) (us q).
Proof.
  destruct (finite_choice (fun q (x : ldual * list (nat * nat) * list nat) => L q = Some (fst (fst x)) /\ local_result (O q) (nc q) max (fst (fst x)) (snd (fst x)) (snd x)) P (mkLD [] [] [] 0 [], [], [])) as (f & Hf).
  - intros q Hq. pose proof (lsum_map_ge (fun q => num_facets (ts q) (arrs q)) P q Hq) as B.
    destruct (local_ok (ts q) (arrs q) (Hin q Hq) (sched q) (tsort q) (threads q) max (fun j l => Hs q j l Hq) (Ht q Hq) (Hth q Hq)) as (ld & D & us & E & R); [clear - B Hn; lia|].
    exists (ld, D, us). auto.
  - exists (fun q => fst (fst (f q))), (fun q => snd (fst (f q))), (fun q => snd (f q)). exact Hf.
Qed.

Theorem parallel_ok r : r < P -> exists rows, build_dual_graph P nbx sched tsort ts arrs max threads r = Some (psums (map (@length nat) rows), concat rows) /\
  length rows = nc r /\
  forall c row, nth_error rows c = Some row -> StronglySorted lt row /\ forall d, In d row <-> adjacent P ts arrs (fc r + c) d.
Proof.
  intro Hr. destruct locals as (ld & D & us & HLd). unfold build_dual_graph. fold L. unfold compute_nonlocal_dual_graph. destruct (Nat.eqb_spec P 1) as [|_]; [lia|].
  assert (HL : forall q, q < P -> L q = Some (ld q)) by (intros q Hq; apply HLd; exact Hq).
  assert (HR : forall q, q < P -> local_result (O q) (nc q) max (ld q) (D q) (us q)) by (intros q Hq; apply HLd; exact Hq). clear HLd.
  assert (Hus : forall q p, q < P -> In p (us q) -> p < length (O q)) by (intros q p Hq H; apply (lr_us_in _ _ _ _ _ _ (HR q Hq)) in H; tauto).
  assert (Ec : forall q, q < P -> ld_cells (ld q) = map (o_cell (O q)) (us q)) by (intros q Hq; apply (lr_cells _ _ _ _ _ _ (HR q Hq))).
  assert (Ef : forall q, q < P -> ld_facets (ld q) = map (fun p => fkey (ld_width (ld q)) (o_verts (O q) p)) (us q)) by (intros q Hq; apply (lr_facets _ _ _ _ _ _ (HR q Hq))).
  assert (Hvl : forall q p, q < P -> In p (us q) -> length (o_verts (O q) p) <= ld_width (ld q)).
  { intros q p Hq H. apply (lr_width _ _ _ _ _ _ (HR q Hq)). apply nth_In. now apply Hus. }
  assert (Hlen : forall q, q < P -> length (ld_facets (ld q)) = length (ld_cells (ld q))) by (intros q Hq; rewrite (Ec q Hq), (Ef q Hq), !map_length; reflexivity).
  assert (Hrow : forall q row, q < P -> In row (ld_facets (ld q)) -> length row = ld_width (ld q) /\ exists v t, row = v :: t /\ (0 <= v < 2 ^ 63 - 1)%Z).
  { intros q row Hq H. rewrite (Ef q Hq) in H. apply in_map_iff in H as (p & <- & Hp). pose proof (Hvl q p Hq Hp) as Hl. split; [now apply fkey_length|].
    destruct (at_verts (ts q) (arrs q) (Hin q Hq) p (Hus q p Hq Hp)) as (H1 & _ & H3). unfold fkey, pad.
    destruct (isort Z.leb (o_verts (O q) p)) as [|v t] eqn:Ei; [apply (f_equal (@length Z)) in Ei; rewrite isort_length in Ei; destruct (o_verts (O q) p); [congruence|discriminate]|].
    exists v, (t ++ repeat (-1)%Z (ld_width (ld q) - length (v :: t))). split; [reflexivity|]. rewrite Forall_forall in H3. apply H3. rewrite <- (isort_in Z.leb), Ei. now left. }
  assert (Hsig : forall q row, q < P -> In row (ld_facets (ld q)) -> Forall (in_signed 64) row).
  { intros q row Hq H. rewrite (Ef q Hq) in H. apply in_map_iff in H as (p & <- & Hp). destruct (at_verts (ts q) (arrs q) (Hin q Hq) p (Hus q p Hq Hp)) as (_ & _ & H3).
    apply Forall_forall. intros v Hv. apply in_signed_vertex. unfold fkey, pad in Hv. apply in_app_iff in Hv as [Hv|Hv].
    - rewrite isort_in in Hv. rewrite Forall_forall in H3. specialize (H3 v Hv). lia.
    - apply repeat_spec in Hv. lia. }
  assert (Hnum : (N.of_nat (lsum (map (fun q => length (ld_cells (ld q))) (seq 0 P))) < 2 ^ 63)%N).
  { assert (G : lsum (map (fun q => length (ld_cells (ld q))) (seq 0 P)) <= lsum (map (fun q => num_facets (ts q) (arrs q)) (seq 0 P))); [|clear - G Hn; lia].
    assert (G : forall l, (forall q, In q l -> q < P) -> lsum (map (fun q => length (ld_cells (ld q))) l) <= lsum (map (fun q => num_facets (ts q) (arrs q)) l)).
    { induction l as [|q l IH]; intro Hl; [cbn; lia|]. cbn [map]. rewrite !lsum_cons. specialize (IH (fun z Hz => Hl z (or_intror Hz))). pose proof (Hl q (or_introl eq_refl)) as Hq.
      rewrite (Ec q Hq), map_length. rewrite <- (occs_length (ts q) (arrs q) (in_len _ _ (Hin q Hq))). rewrite <- (seq_length (length (O q)) 0) at 1.
      assert (length (us q) <= length (seq 0 (length (O q)))); [|rewrite seq_length in *; lia].
      apply NoDup_incl_length; [exact (lr_us _ _ _ _ _ _ (HR q Hq))|]. intros p Hp. apply in_seq. specialize (Hus q p Hq Hp). lia. }
    apply G. intros q Hq. apply in_seq in Hq. lia. }
  assert (HP0 : 0 < P) by lia.
  destruct (extent_ok P L ld HP0 HL Hlen Hrow) as (W & lo & hi & HE & HW & _ & Hlo).
  set (kvl := fun q => map (fun pq => (o_cell (O q) (fst pq), o_cell (O q) (snd pq))) (D q)).
  assert (Hoffs : forall q, q < P -> ld_offsets (ld q) = psums (map (fun c => length (vals c (kvl q))) (seq 0 (nc q)))) by (intros q Hq; apply (lr_offsets _ _ _ _ _ _ (HR q Hq))).
  assert (Hdata : forall q, q < P -> ld_data (ld q) = concat (map (fun c => vals c (kvl q)) (seq 0 (nc q)))) by (intros q Hq; apply (lr_data _ _ _ _ _ _ (HR q Hq))).
  assert (Hcells : forall q c, q < P -> In c (ld_cells (ld q)) -> c < nc q).
  { intros q c Hq H. rewrite (Ec q Hq) in H. apply in_map_iff in H as (p & <- & Hp). apply at_lt; [now apply Hin|now apply Hus]. }
  pose proof (nonlocal_rows_ok P nbx L ld Hnbx HP0 HL Hlen Hrow Hsig Hnum W lo hi HE HW Hlo (fun q => nc q) kvl Hoffs Hdata Hcells r Hr) as E.
  set (R := rows P nbx L ld lo hi (fun q => nc q) kvl r) in E. rewrite E. exists R. split; [reflexivity|].
  assert (LR : length R = nc r) by (unfold R, rows; now rewrite map_length, seq_length).
  split; [exact LR|]. intros c row Hrc. pose proof (nth_error_bound _ _ _ Hrc) as Hc. rewrite LR in Hc.
  unfold R, rows in Hrc. rewrite nth_error_map_some, nth_error_seq in Hrc by exact Hc. cbn [option_map plus] in Hrc. injection Hrc as <-. split; [apply sort_uniq_sorted|].
  assert (Hoff : forall q, q <= P -> off ld q = fc q).
  { intros q Hq. unfold off, first_cell. f_equal. apply map_ext_in. intros s Hss. apply in_seq in Hss. unfold ld_nodes. rewrite (Hoffs s) by lia. rewrite psums_length, map_length, seq_length. lia. }
  intro d. rewrite sort_uniq_in, vals_app, in_app_iff.
  assert (Hloc : In d (vals c (loc ld (fun q => nc q) kvl r)) <-> exists p p', In (p, p') (D r) /\ o_cell (O r) p = c /\ d = fc r + o_cell (O r) p').
  { rewrite vals_loc by exact Hc. rewrite in_map_iff. unfold kvl. split.
    - intros (x & <- & H). apply vals_in in H. apply in_map_iff in H as ((p, p') & Epp & H). cbn [fst snd] in Epp. injection Epp as E1 E2. exists p, p'. split; [exact H|]. split; [exact E1|]. rewrite Hoff by lia. lia.
    - intros (p & p' & H & E1 & E2). exists (o_cell (O r) p'). split; [rewrite Hoff by lia; lia|]. apply vals_in. apply in_map_iff. exists (p, p'). cbn [fst snd]. split; [congruence|exact H]. }
  assert (Hat : forall q f, q < P -> f < length (ld_cells (ld q)) -> exists p, nth_error (us q) f = Some p /\ p < length (O q) /\ cl ld q f = o_cell (O q) p /\ pad W (row_at ld q f) = fkey W (o_verts (O q) p) /\ length (o_verts (O q) p) <= W).
  { intros q f Hq Hf. rewrite (Ec q Hq), map_length in Hf. destruct (nth_error_lt (us q) f Hf) as (p & Ep). pose proof (nth_error_In _ _ Ep) as Ip. exists p. split; [exact Ep|]. split; [now apply Hus|].
    pose proof (Hvl q p Hq Ip) as Hv. pose proof (HW q Hq) as Hw. split; [|split; [|lia]].
    - unfold cl. apply nth_error_nth. rewrite (Ec q Hq), nth_error_map_some, Ep. reflexivity.
    - unfold row_at. rewrite (Ef q Hq). rewrite (nth_error_nth _ _ [] (x := fkey (ld_width (ld q)) (o_verts (O q) p))) by (now rewrite nth_error_map_some, Ep).
      unfold fkey. apply pad_pad; [now rewrite isort_length|exact Hw]. }
  assert (Hfk : forall q q' p p', q < P -> q' < P -> p < length (O q) -> p' < length (O q') -> length (o_verts (O q) p) <= W -> length (o_verts (O q') p') <= W ->
     fkey W (o_verts (O q) p) = fkey W (o_verts (O q') p') <-> Permutation (o_verts (O q) p) (o_verts (O q') p')).
  { intros q q' p p' Hq Hq' Hp Hp' H1 H2. apply fkey_eq; auto; [apply (at_verts (ts q) (arrs q) (Hin q Hq) p Hp)|apply (at_verts (ts q') (arrs q') (Hin q' Hq') p' Hp')]. }
  assert (Hrem : In d (vals c (rem P nbx L ld lo hi r)) <-> exists p q' p', In p (us r) /\ q' < P /\ In p' (us q') /\ (q', p') <> (r, p) /\ o_cell (O r) p = c /\ Permutation (o_verts (O r) p) (o_verts (O q') p') /\ d = fc q' + o_cell (O q') p').
  { rewrite vals_in. unfold rem. rewrite in_concat. split.
    - intros (l & Hl & H). apply in_map_iff in Hl as (f & <- & Hf). apply in_map_iff in H as (x & Ex & H). injection Ex as E1 ->. apply Fq_in in Hf.
      apply (A_in P nbx L ld Hnbx HP0 HL Hlen Hrow Hsig Hnum W lo hi HE HW Hlo r f d Hr Hf) in H as (s & g & Hss & Hg & N & Ep & Ed).
      destruct (Hat r f Hr Hf) as (p & Hp & Lp & C1 & R1 & V1). destruct (Hat s g Hss Hg) as (p' & Hp' & Lp' & C2 & R2 & V2).
      exists p, s, p'. split; [now apply nth_error_In in Hp|]. split; [exact Hss|]. split; [now apply nth_error_In in Hp'|]. split.
      + intro E0. injection E0 as -> ->. apply N. f_equal. pose proof (lr_us _ _ _ _ _ _ (HR r Hr)) as Nd. rewrite NoDup_nth_error in Nd. apply Nd; [now apply nth_error_bound in Hp'|congruence].
      + split; [congruence|]. split; [apply Hfk; auto; congruence|]. rewrite Hoff in Ed by lia. lia.
    - intros (p & q' & p' & Ip & Hq' & Ip' & N & C1 & S & ->). apply In_nth_error in Ip as (f & Hf). apply In_nth_error in Ip' as (g & Hg).
      assert (Lf : f < length (ld_cells (ld r))) by (rewrite (Ec r Hr), map_length; now apply nth_error_bound in Hf).
      assert (Lg : g < length (ld_cells (ld q'))) by (rewrite (Ec q' Hq'), map_length; now apply nth_error_bound in Hg).
      destruct (Hat r f Hr Lf) as (p0 & Hp0 & Lp & D1 & R1 & V1). rewrite Hf in Hp0. injection Hp0 as <-. destruct (Hat q' g Hq' Lg) as (p0 & Hp0 & Lp' & D2 & R2 & V2). rewrite Hg in Hp0. injection Hp0 as <-.
      exists (map (pair (cl ld r f)) (A P nbx L ld lo hi r f)). split; [apply (in_map (fun f => map (pair (cl ld r f)) (A P nbx L ld lo hi r f))); now apply Fq_in|].
      apply in_map_iff. eexists. split; [f_equal; congruence|].
      apply (A_in P nbx L ld Hnbx HP0 HL Hlen Hrow Hsig Hnum W lo hi HE HW Hlo r f _ Hr Lf). exists q', g. split; [exact Hq'|]. split; [exact Lg|]. split.
      + intro E0. injection E0 as -> ->. apply N. congruence.
      + split; [rewrite R1, R2; apply Hfk; auto|]. rewrite Hoff by lia. lia. }
  rewrite Hloc, Hrem. clear Hloc Hrem. unfold adjacent. split.
  - intros [(p & p' & H & E1 & ->)|(p & q' & p' & Ip & Hq' & Ip' & N & E1 & S & ->)].
    + apply (lr_in _ _ _ _ _ _ (HR r Hr)) in H as (N & Hp & Hp' & S). exists (o_idx (O r) p), (o_idx (O r) p'), (o_verts (O r) p), (o_verts (O r) p'). split.
      * intro E0. injection E0 as E2 E3. apply N. apply (at_inj (ts r) (arrs r) (Hin r Hr)); auto. lia.
      * split; [|split; [|exact S]].
        -- exists r, c. split; [exact Hr|]. split; [reflexivity|]. rewrite <- E1. now apply has_at.
        -- exists r, (o_cell (O r) p'). split; [exact Hr|]. split; [reflexivity|]. now apply has_at.
    + pose proof (Hus r p Hr Ip) as Hp. pose proof (Hus q' p' Hq' Ip') as Hp'. exists (o_idx (O r) p), (o_idx (O q') p'), (o_verts (O r) p), (o_verts (O q') p'). split.
      * intro E0. injection E0 as E2 E3. apply N. destruct (fc_inj r c q' (o_cell (O q') p') Hc (at_lt _ _ (Hin q' Hq') p' Hp') E2) as (Eq & E4). subst q'. f_equal. symmetry. apply (at_inj (ts r) (arrs r) (Hin r Hr)); auto. lia.
      * split; [|split; [|exact S]].
        -- exists r, c. split; [exact Hr|]. split; [reflexivity|]. rewrite <- E1. now apply has_at.
        -- exists q', (o_cell (O q') p'). split; [exact Hq'|]. split; [reflexivity|]. now apply has_at.
  - intros (i & j & vs & vs' & N & (r1 & c1 & Hr1 & Eg1 & F1) & (r2 & c2 & Hr2 & Eg2 & F2) & S).
    destruct (at_ex _ _ _ _ _ F1) as (p & Hp & C1 & I1 & V1). destruct (at_ex _ _ _ _ _ F2) as (p' & Hp' & C2 & I2 & V2).
    assert (Hc1 : c1 < nc r1) by (rewrite <- C1; apply at_lt; [now apply Hin|exact Hp]). assert (Hc2 : c2 < nc r2) by (rewrite <- C2; apply at_lt; [now apply Hin|exact Hp']).
    destruct (fc_inj r c r1 c1 Hc Hc1 Eg1) as (Er & Ecc). subst r1. rewrite <- Ecc in C1. subst vs vs'. destruct (Nat.eq_dec r2 r) as [->|Nr].
    + left. exists p, p'. split; [|split; [exact C1|congruence]]. apply (lr_in _ _ _ _ _ _ (HR r Hr)). split; [|auto]. intros ->. apply N. congruence.
    + right. exists p, r2, p'. split; [|split; [exact Hr2|split; [|split; [congruence|split; [exact C1|split; [exact S|congruence]]]]]].
      * apply (lr_us_in _ _ _ _ _ _ (HR r Hr)). split; [exact Hp|]. now apply (few_shared r p r2 p'); auto.
      * apply (lr_us_in _ _ _ _ _ _ (HR r2 Hr2)). split; [exact Hp'|]. apply (few_shared r2 p' r p); auto. now symmetry.
Qed.
End World.

(** ** Consequences *)
Lemma adjacent_sym P ts arrs g d : adjacent P ts arrs g d -> adjacent P ts arrs d g.
Proof. intros (i & j & vs & vs' & N & H1 & H2 & S). exists j, i, vs', vs. split; [congruence|]. split; [exact H2|]. split; [exact H1|now symmetry]. Qed.

Lemma rows_unique (R1 R2 : list (list nat)) n (Q : nat -> nat -> Prop) : length R1 = n -> length R2 = n ->
  (forall c row, nth_error R1 c = Some row -> StronglySorted lt row /\ forall d, In d row <-> Q c d) ->
  (forall c row, nth_error R2 c = Some row -> StronglySorted lt row /\ forall d, In d row <-> Q c d) -> R1 = R2.
Proof.
  intros L1 L2 H1 H2. apply nth_error_ext. intro c. destruct (Nat.lt_ge_cases c n) as [Hc|Hc].
  - destruct (nth_error_lt R1 c) as (r1 & E1); [lia|]. destruct (nth_error_lt R2 c) as (r2 & E2); [lia|]. rewrite E1, E2. f_equal.
    destruct (H1 c r1 E1) as (S1 & I1). destruct (H2 c r2 E2) as (S2 & I2). apply SS_lt_eq; auto. intro d. now rewrite I1, I2.
  - transitivity (@None (list nat)); [|symmetry]; apply nth_error_None; lia.
Qed.
