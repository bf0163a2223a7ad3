(** The result of build_local_dual_graph in terms of the facets of the cells. *)
From Verif Require Import Base BaseProofs Algo AlgoProofs BucketProofs CellTypes Sort SortSpec SortProofs DualGraph DualGraphSpec DualRows DualPairs DualMatch DualStorage DualLocal.
Open Scope nat_scope.

Definition o_at (O : list occ) (p : nat) : occ := nth p O ((0, 0), []).
Definition o_cell (O : list occ) (p : nat) : nat := fst (fst (o_at O p)).
Definition o_verts (O : list occ) (p : nat) : list Z := snd (o_at O p).

Definition few (O : list occ) (max : option nat) (p : nat) : Prop :=
  match max with None => True | Some m =>
    exists l, NoDup l /\ (forall q, In q l <-> q < length O /\ Permutation (o_verts O p) (o_verts O q)) /\ length l < m end.

Record local_result (O : list occ) (nc : nat) (max : option nat) (ld : ldual) (D : list (nat * nat)) (us : list nat) : Prop := {
  lr_width : forall o, In o O -> length (snd o) <= ld_width ld;
  lr_D : NoDup D;
  lr_in : forall p q, In (p, q) D <-> p <> q /\ p < length O /\ q < length O /\ Permutation (o_verts O p) (o_verts O q);
  lr_offsets : ld_offsets ld = psums (map (fun c => length (vals c (map (fun pq => (o_cell O (fst pq), o_cell O (snd pq))) D))) (seq 0 nc));
  lr_data : ld_data ld = concat (map (fun c => vals c (map (fun pq => (o_cell O (fst pq), o_cell O (snd pq))) D)) (seq 0 nc));
  lr_us : NoDup us;
  lr_us_in : forall p, In p us <-> p < length O /\ few O max p;
  lr_facets : ld_facets ld = map (fun p => fkey (ld_width ld) (o_verts O p)) us;
  lr_cells : ld_cells ld = map (o_cell O) us }.

Lemma max_ge l x : In x l -> x <= fold_right Nat.max 0 l.
Proof. induction l as [|y l IH]; [intros []|]. cbn. intros [->|H]; [lia|]. specialize (IH H). lia. Qed.
Lemma NoDup_app_parts {A} (a b : list A) : NoDup (a ++ b) -> NoDup a /\ NoDup b /\ forall x, In x a -> ~ In x b.
Proof.
  induction a as [|y a IH]; cbn; intro H; [split; [constructor|split; [exact H|intros x []]]|]. inversion H as [|? ? Hn H']; subst. destruct (IH H') as (H1 & H2 & H3).
  rewrite in_app_iff in Hn. split; [constructor; tauto|]. split; [exact H2|]. intros x [<-|Hx]; [tauto|now apply H3].
Qed.
Lemma NoDup_filter_concat {A} (F : list A -> bool) gs : NoDup (concat gs) -> NoDup (concat (filter F gs)).
Proof.
  induction gs as [|g gs IH]; intro H; [constructor|]. cbn in *. apply NoDup_app_parts in H as (H1 & H2 & H3).
  destruct (F g); [|now apply IH]. cbn. apply NoDup_app_i; [exact H1|now apply IH|].
  intros x Hx Hc. apply in_concat in Hc as (l & Hl & Hc). apply filter_In in Hl as (Hl & _). apply (H3 x Hx). apply in_concat. eauto.
Qed.

Section Local.
Variables (ts : list cell_type) (arrs : list (list Z)).
Hypothesis Hin : input_ok ts arrs.

Lemma in_len : length ts = length arrs. Proof. exact (proj1 Hin). Qed.
Lemma in_dim : Forall (fun t => 0 < cell_dim t) ts.
Proof. destruct Hin as (_ & (d & Hd & H) & _). apply Forall_forall. intros t Ht. rewrite Forall_forall in H. rewrite (H t Ht). exact Hd. Qed.

Lemma facet_verts c i vs : has_facet ts arrs c i vs -> vs <> [] /\ Forall (fun v => (0 <= v < 2 ^ 63 - 1)%Z) vs /\
  exists t fv, In t ts /\ In fv (facets t) /\ length vs = length fv.
Proof.
  intro H. destruct H as [j t a k i fv Et Ea Hk Hf]. apply nth_error_In in Et as It. apply nth_error_In in Ea as Ia. apply nth_error_In in Hf as If.
  pose proof in_dim as Hd. rewrite Forall_forall in Hd. split; [|split].
  - intro E. apply (facets_nonempty t fv (Hd t It) If). destruct fv; [reflexivity|discriminate].
  - apply Forall_forall. intros v Hv. apply in_map_iff in Hv as (x & <- & Hx). pose proof (facets_bound t fv x If Hx) as B.
    destruct Hin as (_ & _ & Ha). rewrite Forall_forall in Ha. specialize (Ha a Ia). rewrite Forall_forall in Ha. apply Ha. apply nth_In.
    unfold block_cells in Hk. pose proof (proj2 (verts_ok t)) as Hv. pose proof (Nat.mul_div_le (length a) (verts t) ltac:(lia)) as M.
    assert (Q : (k + 1) * verts t <= length a / verts t * verts t) by (apply Nat.mul_le_mono_r; lia). rewrite Nat.mul_add_distr_r in Q. lia.
  - exists t, fv. split; [exact It|]. split; [exact If|]. apply map_length.
Qed.
Lemma occ_verts o : In o (all_occs ts arrs) -> snd o <> [] /\ Forall (fun v => (0 <= v < 2 ^ 63 - 1)%Z) (snd o) /\
  exists t fv, In t ts /\ In fv (facets t) /\ length (snd o) = length fv.
Proof. destruct o as ((c, i), vs). intro H. apply occs_in in H. exact (facet_verts c i vs H). Qed.
Lemma occ_nonneg o : In o (all_occs ts arrs) -> nonneg (snd o).
Proof. intro H. apply occ_verts in H as (_ & H & _). eapply Forall_impl; [|exact H]. cbv beta. intros. lia. Qed.

Lemma infos_ok d : 0 < d -> Forall (fun t => cell_dim t = d) ts -> omap (block_info d) (combine ts arrs) = Some (infos ts arrs).
Proof.
  intros Hd H. apply omap_map. intros (t, a) Ht. apply in_combine_l in Ht. rewrite Forall_forall in H. specialize (H t Ht). unfold block_info.
  destruct (Nat.eqb_spec d 0) as [|_]; [lia|]. rewrite H, Nat.eqb_refl. cbn [negb]. rewrite (proj1 (verts_ok t)). cbn [obind].
  rewrite <- H, facets_ok by lia. reflexivity.
Qed.

Variables (sched : nat -> list (nat * frow) -> list (nat * frow)) (tsort : list (list Z) -> list nat) (threads : nat) (max : option nat).
Hypothesis Hsched : forall j l, Permutation (sched j l) l.
Hypothesis Hts : sorts_facets tsort.
Hypothesis Ht : 0 < threads.
Hypothesis Hn : (N.of_nat (num_facets ts arrs) < 2 ^ 63)%N.

Lemma empty_input : lsum (map (@length Z) arrs) = 0 -> num_cells ts arrs = 0 /\ all_occs ts arrs = [].
Proof.
  intro H. assert (Z0 : forall t a, In (t, a) (combine ts arrs) -> block_cells t a = 0).
  { intros t a Hta. apply in_combine_r in Hta. unfold block_cells. replace (length a) with 0; [apply Nat.div_0_l; pose proof (proj2 (verts_ok t)); lia|].
    symmetry. apply (in_map (@length Z)) in Hta. apply in_split in Hta as (l1 & l2 & E). rewrite E, lsum_app in H. unfold lsum in H. cbn in H. lia. }
  assert (S0 : forall {A} (f : A -> nat) l, (forall x, In x l -> f x = 0) -> lsum (map f l) = 0).
  { clear. intros A f l H. induction l as [|x l IH]; [reflexivity|]. cbn [map]. unfold lsum in *. cbn. rewrite H, IH; [reflexivity| |now left]. intros; apply H; now right. }
  split; [apply S0; intros (t, a) K; exact (Z0 t a K)|]. apply length_zero_iff_nil. rewrite occs_length by exact in_len.
  apply S0. intros (t, a) K. cbn [fst snd]. now rewrite (Z0 t a K).
Qed.

Theorem local_ok : exists ld D us, build_local_dual_graph sched tsort ts arrs max threads = Some ld /\ local_result (all_occs ts arrs) (num_cells ts arrs) max ld D us.
Proof.
  unfold build_local_dual_graph. destruct (Nat.ltb_spec threads 1) as [|_]; [lia|].
  destruct (Nat.eqb_spec (lsum (map (@length Z) arrs)) 0) as [E0|N0].
  - destruct (empty_input E0) as (E1 & E2). rewrite E1, E2. eexists _, [], []. split; [reflexivity|]. constructor; cbn.
    + intros o [].
    + constructor.
    + intros p q. split; [intros []|intros (_ & H & _); lia].
    + reflexivity. + reflexivity. + constructor.
    + intro p. split; [intros []|intros (H & _); lia].
    + reflexivity. + reflexivity.
  - rewrite in_len, Nat.eqb_refl. cbn [negb].
    assert (Hne : exists t0 ts', ts = t0 :: ts').
    { pose proof in_len as Hl. destruct ts as [|t0 ts']; [|eauto]. destruct arrs; [exfalso; apply N0; reflexivity|discriminate]. }
    destruct Hne as (t0 & ts' & Ets). destruct Hin as (_ & (d & Hd & Hdim) & _).
    assert (Ed : option_map cell_dim (hd_error ts) = Some d).
    { rewrite Ets. cbn. f_equal. rewrite Forall_forall in Hdim. apply Hdim. rewrite Ets. now left. }
    rewrite Ed. cbn [obind]. rewrite (infos_ok d Hd Hdim). cbn [obind].
    set (w := fold_right Nat.max 0 (map (@length nat) (concat (map (fun i => fst (snd i)) (infos ts arrs))))).
    assert (Hw : forall t fv, In t ts -> In fv (facets t) -> length fv <= w).
    { intros t fv It If. apply max_ge, in_map, in_concat. exists (facets t). split; [|exact If]. unfold infos. rewrite map_map. cbn [fst snd].
      rewrite <- (map_map fst facets), map_fst_combine by (rewrite in_len; lia). now apply in_map. }
    rewrite (storage_ok ts arrs w in_len in_dim Hw sched threads Hsched Ht). cbn [obind].
    rewrite all_vals_occs. set (O := all_occs ts arrs). rewrite map_map. cbn [val_of fst].
    assert (Hw' : forall o, In o O -> length (snd o) <= w).
    { intros o Ho. apply occ_verts in Ho as (_ & _ & t & fv & It & If & ->). now apply (Hw t). }
    set (keys := map (fun o : occ => fkey w (snd o)) O).
    assert (Wp : 0 < w).
    { rewrite Ets in Hw. destruct (facets t0) as [|fv fs] eqn:Ef.
      - exfalso. assert (D0 : 0 < cell_dim t0) by (pose proof in_dim as G; rewrite Forall_forall in G; apply G; rewrite Ets; now left). clear - Ef D0. destruct t0; cbn in *; try discriminate; lia.
      - specialize (Hw t0 fv (or_introl eq_refl)). rewrite Ef in Hw. specialize (Hw (or_introl eq_refl)).
        assert (fv <> []) by (apply (facets_nonempty t0); [pose proof in_dim as G; rewrite Forall_forall in G; apply G; rewrite Ets; now left|rewrite Ef; now left]).
        destruct fv; [congruence|cbn in Hw; lia]. }
    assert (Hkeys : Forall (fun k => length k = w /\ Forall (in_signed 64) k) keys).
    { apply Forall_forall. intros k Hk. apply in_map_iff in Hk as (o & <- & Ho). split; [apply fkey_length; now apply Hw'|].
      apply Forall_forall. intros v Hv. apply in_signed_vertex. unfold fkey, pad in Hv. apply in_app_iff in Hv as [Hv|Hv].
      - rewrite isort_in in Hv. apply occ_verts in Ho as (_ & B & _). rewrite Forall_forall in B. specialize (B v Hv). lia.
      - apply repeat_spec in Hv. lia. }
    assert (Ln : length keys = length O) by apply map_length.
    destruct (facet_order_ok keys w threads tsort Wp Hkeys) as (order & Eo & Hperm & Hsort); [rewrite Ln; unfold O; rewrite occs_length by exact in_len; clear - Hn; lia|exact Hts|].
    rewrite Eo. cbn [obind]. destruct (matched_pairs keys order Hperm Hsort) as (gs & Eg & Hc & Hg & Hnd & HD). rewrite Eg. cbn [obind].
    assert (Hord : forall i, In i order <-> i < length O).
    { intro i. split; intro H; [apply (Permutation_in _ (Permutation_sym Hperm)), in_seq in H; lia|apply (Permutation_in _ Hperm), in_seq; lia]. }
    assert (Hndo : NoDup order) by (eapply Permutation_NoDup; [exact Hperm|apply seq_NoDup]).
    assert (Hat : forall p, p < length O -> nth_error (map (val_of w) O) p = Some (val_of w (o_at O p))).
    { intros p Hp. rewrite nth_error_map_some. unfold o_at. rewrite (nth_error_nth' O ((0, 0), []) Hp). reflexivity. }
    assert (Hio : forall p, p < length O -> In (o_at O p) O) by (intros p Hp; now apply nth_In).
    assert (Hkey : forall p q, p < length O -> q < length O -> nth_error keys p = nth_error keys q <-> Permutation (o_verts O p) (o_verts O q)).
    { intros p q Hp Hq. unfold keys. rewrite !nth_error_map_some, (nth_error_nth' O ((0, 0), []) Hp), (nth_error_nth' O ((0, 0), []) Hq). cbn [option_map].
      fold (o_at O p) (o_at O q). fold (o_verts O p) (o_verts O q). rewrite <- (fkey_eq w).
      - split; [intro E; now injection E|intro E; now rewrite E].
      - apply occ_nonneg, Hio, Hp. - apply occ_nonneg, Hio, Hq. - apply Hw', Hio, Hp. - apply Hw', Hio, Hq. }
    assert (Hgin : forall g x, In g gs -> In x g -> x < length O) by (intros g x H1 H2; apply Hord; rewrite <- Hc; apply in_concat; eauto).
    set (F := fun g : list nat => match max with None => true | Some m => length g <? m end).
    set (us := concat (filter F gs)).
    assert (Hus : forall p, In p us -> p < length O).
    { intros p H. apply in_concat in H as (g & H1 & H2). apply filter_In in H1 as (H1 & _). now apply (Hgin g). }
    rewrite (omap_map _ (fun p => val_of w (o_at O p)) us) by (intros p Hp; apply Hat, Hus, Hp). cbn [obind].
    set (E := concat (map all_pairs gs)) in *.
    assert (HE : forall a b, In (a, b) E -> a < length O /\ b < length O).
    { intros a b H. unfold E in H. apply in_concat in H as (l & H1 & H2). apply in_map_iff in H1 as (g & <- & H1). apply all_pairs_members in H2 as (H2 & H3). split; now apply (Hgin g). }
    rewrite (omap_map _ (fun ab => (o_cell O (fst ab), o_cell O (snd ab))) E).
    2:{ intros (a, b) Hab. destruct (HE a b Hab) as (Ha & Hb). cbn [fst snd]. rewrite (Hat a Ha), (Hat b Hb). reflexivity. }
    cbn [obind]. rewrite both_map. set (D := concat (map (both (fun i => i)) E)) in *.
    assert (Hnc : lsum (map (fun i : nat * (list (list nat) * nat) => snd (snd i)) (infos ts arrs)) = num_cells ts arrs).
    { unfold infos, num_cells. rewrite map_map. reflexivity. }
    rewrite Hnc, fill_links_ok.
    2:{ apply Forall_forall. intros kv Hkv. apply in_map_iff in Hkv as ((p, q) & <- & Hpq). cbn [fst]. apply HD in Hpq as (_ & Hp & _). rewrite Ln in Hp.
        specialize (Hio p Hp). unfold o_cell. destruct (o_at O p) as ((c, i), vs) eqn:Eop. cbn [fst]. exact (occ_cell_lt ts arrs in_len c i vs Hio). }
    cbn [obind]. eexists _, D, us. split; [reflexivity|]. constructor; cbn [ld_offsets ld_data ld_facets ld_width ld_cells].
    + exact Hw'.
    + exact Hnd.
    + intros p q. rewrite HD, Ln. split; intros (H1 & H2 & H3 & H4); (split; [exact H1|]; split; [exact H2|]; split; [exact H3|]); now apply Hkey.
    + reflexivity.
    + reflexivity.
    + apply NoDup_filter_concat. now rewrite Hc.
    + intro p. assert (Hf : forall g, In g gs -> In p g -> F g = true <-> few O max p).
      { intros g Hgg Hpg. pose proof (Hgin g p Hgg Hpg) as Hp. unfold F, few. destruct max as [m|]; [|tauto].
        assert (Gq : forall q, In q g <-> q < length O /\ Permutation (o_verts O p) (o_verts O q)).
        { intro q. rewrite (Hg g p Hgg Hpg), filter_In, Hord. unfold same_row. split.
          - intros (Hq & S). split; [exact Hq|]. apply (Hkey p q Hp Hq). destruct (nth_error keys p) as [a|] eqn:Ea; [|discriminate]. destruct (nth_error keys q) as [b|]; [|discriminate].
            apply zrow_eqb_eq in S. now rewrite S.
          - intros (Hq & S). split; [exact Hq|]. apply (Hkey p q Hp Hq) in S. rewrite <- S. destruct (nth_error keys p) as [a|] eqn:Ea; [now apply zrow_eqb_eq|].
            apply nth_error_None in Ea. lia. }
        assert (Ng : NoDup g) by (rewrite (Hg g p Hgg Hpg); now apply NoDup_filter). rewrite Nat.ltb_lt. split.
        - intro H. exists g. auto.
        - intros (l & Nl & Hl & H). replace (length g) with (length l); [exact H|]. apply Permutation_length. apply NoDup_Permutation; [exact Nl|exact Ng|].
          intro q. now rewrite Hl, Gq. }
      unfold us. rewrite in_concat. split.
      * intros (g & H1 & H2). apply filter_In in H1 as (H1 & H3). split; [now apply (Hgin g)|]. now apply (Hf g).
      * intros (H1 & H2). apply Hord in H1. rewrite <- Hc in H1. apply in_concat in H1 as (g & H1 & H3). exists g. split; [|exact H3].
        apply filter_In. split; [exact H1|]. now apply (Hf g).
    + rewrite map_map. reflexivity.
    + rewrite map_map. reflexivity.
Qed.
End Local.
