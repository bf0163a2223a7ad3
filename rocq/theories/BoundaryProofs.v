(** Boundary vertices: the facets of one cell type and of several cell types. *)
From Verif Require Import Base BaseProofs Algo AlgoProofs Sort SortSpec SortProofs World CellTypes DualGraph DualGraphSpec DualRows DualPairs DualMatch DualStorage DualLocal DualGraphProofs MeshCreate MeshCreateProofs RoundTrip BoundaryVerts BoundarySpec.
Open Scope nat_scope.

(** ** One cell type *)
Definition fvs (c : cell_type) (a : list Z) (id : nat * nat) : list Z :=
  map (fun x => nth (fst id * verts c + x) a 0%Z) (nth (snd id) (facets c) []).

Lemma facet_vertices_fvs c a k i vs : facet_vertices c a k i vs -> vs = fvs c a (k, i).
Proof. intros (_ & fv & E & ->). unfold fvs. cbn [fst snd]. now rewrite (nth_error_nth _ _ [] E). Qed.
Lemma has_facet_one c a k i vs : has_facet [c] [a] k i vs <-> facet_vertices c a k i vs.
Proof.
  split.
  - intro H. destruct H as [j t b k i fv Et Ea Hk Hf]. destruct j as [|j]; [|destruct j; discriminate]. cbn in Et, Ea. injection Et as <-. injection Ea as <-.
    cbn [firstn]. unfold DualGraphSpec.num_cells. cbn [combine map]. change (lsum []) with 0. cbn [plus]. split; [exact Hk|]. exists fv. auto.
  - intros (Hk & fv & Ef & ->). exact (HasFacet [c] [a] 0 c a k i fv eq_refl eq_refl Hk Ef).
Qed.

Definition few_in (c : cell_type) (a : list Z) (max : option nat) (vs : list Z) : Prop :=
  match max with
  | None => True
  | Some m => exists l, NoDup l /\ (forall k i, In (k, i) l <-> exists vs', facet_vertices c a k i vs' /\ Permutation vs vs') /\ length l < m
  end.

Section Block.
Variables (c : cell_type) (a : list Z).
Hypothesis Hdim : 0 < cell_dim c.
Hypothesis Ha : Forall (fun v => (0 <= v < 2 ^ 63 - 1)%Z) a.

Lemma block_input : input_ok [c] [a].
Proof. split; [reflexivity|]. split; [exists (cell_dim c); split; [exact Hdim|repeat constructor]|]. constructor; [exact Ha|constructor]. Qed.

Lemma fvs_ok k i vs : facet_vertices c a k i vs -> vs <> [] /\ Forall (fun v => (0 <= v < 2 ^ 63 - 1)%Z) vs /\ incl vs a.
Proof.
  intros (Hk & fv & Ef & ->). apply nth_error_In in Ef.
  assert (B : forall x, In x fv -> k * verts c + x < length a).
  { intros x Hx. pose proof (facets_bound c fv x Ef Hx) as Bx. pose proof (proj2 (verts_ok c)) as Hv. pose proof (Nat.mul_div_le (length a) (verts c) ltac:(lia)) as M.
    assert (Q : (k + 1) * verts c <= length a / verts c * verts c) by (apply Nat.mul_le_mono_r; lia). rewrite Nat.mul_add_distr_r in Q. lia. }
  split; [|split].
  - intro E. apply (facets_nonempty c fv Hdim Ef). destruct fv; [reflexivity|discriminate].
  - rewrite Forall_forall in *. intros v Hv. apply in_map_iff in Hv as (x & <- & Hx). apply Ha, nth_In, B, Hx.
  - intros v Hv. apply in_map_iff in Hv as (x & <- & Hx). apply nth_In, B, Hx.
Qed.

Variables (sched : nat -> list (nat * frow) -> list (nat * frow)) (tsort : list (list Z) -> list nat) (max : option nat) (threads : nat).
Hypothesis Hsched : forall j l, Permutation (sched j l) l.
Hypothesis Hts : sorts_facets tsort.
Hypothesis Ht : 0 < threads.
Hypothesis Hn : (N.of_nat (length a / verts c * length (facets c)) < 2 ^ 63)%N.

Lemma block_facets : exists ld ids,
  build_local_dual_graph sched tsort [c] [a] max threads = Some ld /\
  length (ld_offsets ld) = S (length a / verts c) /\ NoDup ids /\
  (forall k i, In (k, i) ids <-> exists vs, facet_vertices c a k i vs /\ few_in c a max vs) /\
  (forall id, In id ids -> length (fvs c a id) <= ld_width ld) /\
  ld_facets ld = map (fun id => fkey (ld_width ld) (fvs c a id)) ids.
Proof.
  destruct (local_graph_ok sched tsort [c] [a] max threads block_input Hsched Hts Ht) as (ld & rows & E & Eo & _ & Hl & _ & ids & Nd & Hin & _ & HF).
  { unfold num_facets. cbn [combine map fst snd]. unfold lsum. cbn [fold_right]. unfold block_cells. rewrite Nat.add_0_r. exact Hn. }
  assert (Hrow : forall id row, (exists vs s, has_facet [c] [a] (fst id) (snd id) vs /\ Permutation vs s /\
               StronglySorted Z.le s /\ length s <= ld_width ld /\ row = s ++ repeat (-1)%Z (ld_width ld - length s)) ->
               length (fvs c a id) <= ld_width ld /\ row = fkey (ld_width ld) (fvs c a id)).
  { intros (k, i) row (vs & s & Hf & Hp & Hs & Hw & ->). cbn [fst snd] in Hf. apply has_facet_one in Hf. apply facet_vertices_fvs in Hf. subst vs.
    split; [rewrite (Permutation_length Hp); exact Hw|]. unfold fkey, pad. rewrite (zsort_unique (fvs c a (k, i)) s); [reflexivity| |exact Hp].
    apply (SS_impl_in Z.le); [|exact Hs]. intros x y _ _ H. now apply Z.leb_le. }
  exists ld, ids. split; [exact E|]. split; [|split; [exact Nd|split; [|split]]].
  - rewrite Eo, psums_length, map_length, Hl. unfold DualGraphSpec.num_cells. cbn [combine map fst snd]. unfold lsum. cbn [fold_right]. unfold block_cells. lia.
  - intros k i. rewrite Hin. split; intros (vs & Hf & Hm); exists vs; (split; [now apply has_facet_one|]); unfold few_in in *; destruct max as [m|]; try exact I;
      destruct Hm as (l & H1 & H2 & H3); exists l; (split; [exact H1|]); (split; [|exact H3]); intros k' i'; rewrite H2;
      split; intros (vs' & Hf' & Hp'); exists vs'; (split; [now apply has_facet_one|exact Hp']).
  - intros id Hid. clear - HF Hrow Hid. induction HF as [|x row ids rows Hx HF IH]; [destruct Hid|]. destruct Hid as [<-|Hid]; [exact (proj1 (Hrow _ _ Hx))|auto].
  - clear - HF Hrow. induction HF as [|x row ids rows' Hx HF IH]; [reflexivity|]. cbn [map]. f_equal; [exact (proj2 (Hrow _ _ Hx))|exact IH].
Qed.
End Block.

(** ** Sorted sets of vertices *)
Lemma fkey_in w vs v : In v (fkey w vs) -> In v vs \/ v = (-1)%Z.
Proof. unfold fkey, pad. intro H. apply in_app_iff in H as [H|H]; [left; now rewrite isort_in in H|right; now apply repeat_spec in H]. Qed.
Lemma in_fkey w vs v : In v vs -> In v (fkey w vs).
Proof. intro H. unfold fkey, pad. apply in_or_app. left. now rewrite isort_in. Qed.

Lemma boundary_single_ok {I} (V : I -> list Z) (ids : list I) w : (forall id, In id ids -> nonneg (V id)) ->
  StronglySorted Z.lt (boundary_single (map (fun id => fkey w (V id)) ids)) /\
  forall v, In v (boundary_single (map (fun id => fkey w (V id)) ids)) <-> exists id, In id ids /\ In v (V id).
Proof.
  intro Hnn. set (F := concat (map (fun id => fkey w (V id)) ids)).
  assert (HF : forall v, In v F -> v = (-1)%Z \/ (0 <= v)%Z /\ exists id, In id ids /\ In v (V id)).
  { intros v Hv. apply in_concat in Hv as (l & Hl & Hv). apply in_map_iff in Hl as (id & <- & Hid). apply fkey_in in Hv as [Hv|Hv]; [right|left; exact Hv].
    specialize (Hnn id Hid). rewrite Forall_forall in Hnn. eauto. }
  assert (HG : forall v, (exists id, In id ids /\ In v (V id)) -> In v F).
  { intros v (id & Hid & Hv). apply in_concat. exists (fkey w (V id)). split; [apply (in_map (fun id => fkey w (V id))); exact Hid|now apply in_fkey]. }
  assert (HV : forall v, (exists id, In id ids /\ In v (V id)) -> (0 <= v)%Z).
  { intros v (id & Hid & Hv). specialize (Hnn id Hid). rewrite Forall_forall in Hnn. auto. }
  unfold boundary_single. fold F. fold (nodes1 F). pose proof (nodes1_sorted F) as S. pose proof (nodes1_in F) as M.
  destruct (nodes1 F) as [|u t].
  - split; [constructor|]. intro v. split; [intros []|]. intro H. apply M, HG, H.
  - inversion S as [|? ? St Ft]; subst. rewrite Forall_forall in Ft. destruct (Z.eqb_spec u (-1)) as [->|N].
    + split; [exact St|]. intro v. split.
      * intro Hv. specialize (Ft v Hv). destruct (HF v) as [->|(_ & H)]; [apply M; now right|lia|exact H].
      * intro H. pose proof (HV v H). apply HG, M in H as [<-|H]; [lia|exact H].
    + split; [exact S|]. intro v. split.
      * intro Hv. destruct (HF v) as [->|(_ & H)]; [now apply M|exfalso|exact H].
        assert (Hu : In u F) by (apply M; now left). destruct (HF u Hu) as [E|(Eu & _)]; [contradiction|]. destruct Hv as [E|Hv]; [lia|]. specialize (Ft _ Hv). lia.
      * intro H. apply M, HG, H.
Qed.

(** ** Facets of several types *)
Lemma prefix_len_repeat {A} (p : A -> bool) x n l : p x = true -> prefix_len p (repeat x n ++ l) = n + prefix_len p l.
Proof. intro H. induction n as [|n IH]; [reflexivity|]. cbn [repeat app prefix_len]. rewrite H, IH. reflexivity. Qed.
Lemma rev_repeat {A} (x : A) n : rev (repeat x n) = repeat x n.
Proof.
  induction n as [|n IH]; [reflexivity|]. cbn [repeat rev]. rewrite IH. clear IH. induction n as [|n IH]; [reflexivity|]. cbn [repeat app]. now rewrite IH.
Qed.
Lemma trim_len_fkey w vs : nonneg vs -> length vs <= w -> trim_len (fkey w vs) = length vs.
Proof.
  intros Hv Hw. unfold trim_len. rewrite fkey_length by exact Hw. unfold fkey, pad. rewrite rev_app_distr, rev_repeat, prefix_len_repeat by reflexivity.
  assert (E : prefix_len (fun z => (z <? 0)%Z) (rev (isort Z.leb vs)) = 0).
  { apply nonneg_isort in Hv. destruct (rev (isort Z.leb vs)) as [|x t] eqn:Er; [reflexivity|]. cbn [prefix_len].
    assert (Hx : In x (isort Z.leb vs)) by (apply in_rev; rewrite Er; now left). rewrite Forall_forall in Hv. specialize (Hv x Hx). destruct (Z.ltb_spec x 0); [lia|reflexivity]. }
  rewrite E, isort_length. lia.
Qed.
Lemma firstn_fkey w vs : firstn (length vs) (fkey w vs) = isort Z.leb vs.
Proof. unfold fkey, pad. rewrite firstn_app, isort_length, Nat.sub_diag, firstn_O, app_nil_r. rewrite <- (isort_length Z.leb vs). apply firstn_all. Qed.

Lemma same_facet_fkey w a b : nonneg a -> nonneg b -> length a <= w -> length b <= w ->
  (incl a b -> length b <= length a) -> (same_facet (fkey w a) (fkey w b) = true <-> fkey w a = fkey w b).
Proof.
  intros Ha Hb La Lb Hpart. unfold same_facet. rewrite trim_len_fkey by assumption. rewrite firstn_fkey, zrow_eqb_eq. split.
  - intro E. destruct (Nat.lt_ge_cases (length b) (length a)) as [H|H].
    + exfalso. assert (In (-1)%Z (isort Z.leb a)).
      { rewrite E. unfold fkey, pad. rewrite firstn_app, isort_length. apply in_or_app. right. destruct (length a - length b) as [|n] eqn:En; [lia|]. destruct (w - length b) as [|m] eqn:Em; [lia|].
        cbn [repeat firstn]. now left. }
      rewrite isort_in in H0. rewrite Forall_forall in Ha. specialize (Ha _ H0). lia.
    + assert (E' : isort Z.leb a = firstn (length a) (isort Z.leb b)).
      { rewrite E. unfold fkey, pad. rewrite firstn_app, isort_length. replace (length a - length b) with 0 by lia. now rewrite firstn_O, app_nil_r. }
      assert (Hi : incl a b). { intros x Hx. assert (Hx' : In x (isort Z.leb a)) by (now rewrite isort_in). rewrite E' in Hx'. assert (Hy : In x (isort Z.leb b)) by (rewrite <- (firstn_skipn (length a) (isort Z.leb b)); apply in_or_app; now left). now rewrite isort_in in Hy. }
      specialize (Hpart Hi). assert (length a = length b) by lia. unfold fkey. f_equal. rewrite E'. replace (length a) with (length (isort Z.leb b)) by (rewrite isort_length; lia). apply firstn_all.
  - intro E. rewrite <- E. symmetry. apply firstn_fkey.
Qed.

(** The sorted rows fall into groups of equal rows. *)
Section Several.
Context {I : Type}.
Variables (V : I -> list Z) (ids : list I) (W : nat) (tsort : list (list Z) -> list nat).
Hypothesis Hts : sorts_facets tsort.
Hypothesis Hnd : NoDup ids.
Hypothesis Hv : forall id, In id ids -> V id <> [] /\ Forall (fun v => (0 <= v < 2 ^ 63 - 1)%Z) (V id) /\ length (V id) <= W.
Hypothesis Hpart : forall id id', In id ids -> In id' ids -> incl (V id) (V id') -> length (V id') <= length (V id).
Hypothesis Htwo : forall a b c, In a ids -> In b ids -> In c ids -> Permutation (V a) (V b) -> Permutation (V a) (V c) -> a = b \/ a = c \/ b = c.
Hypothesis Hnum : (N.of_nat (length ids) < 2 ^ 63)%N.
Definition srow (id : I) : list Z := fkey W (V id).

Lemma v_nonneg id : In id ids -> nonneg (V id).
Proof. intro H. destruct (Hv id H) as (_ & F & _). eapply Forall_impl; [|exact F]. cbv beta. intros. lia. Qed.
Lemma srow_eq a b : In a ids -> In b ids -> srow a = srow b <-> Permutation (V a) (V b).
Proof. intros Ha Hb. apply fkey_eq; try (now apply v_nonneg); now apply Hv. Qed.

Lemma sort_rows : exists perm rows,
  sort_by_perm_cols 64 16 (map (fun j => map (fun row => nth j row 0%Z) (map srow ids)) (seq 0 W)) = Some perm /\
  omap (nth_error (map srow ids)) perm = Some rows /\ Permutation (map srow ids) rows /\ StronglySorted lex_le rows.
Proof.
  assert (D : ids = [] /\ W = 0 \/ 0 < W).
  { destruct W as [|W']; [left; split; [|reflexivity]|right; lia]. destruct ids as [|i0 ids']; [reflexivity|]. exfalso.
    destruct (Hv i0) as (H1 & _ & H2); [now left|]. destruct (V i0); [congruence|cbn in H2; lia]. }
  destruct D as [(E & E0)|W0].
  { rewrite E, E0. exists [], []. cbn. split; [reflexivity|]. split; [reflexivity|]. split; constructor. }
  assert (Hk : Forall (fun k => length k = W /\ Forall (in_signed 64) k) (map srow ids)).
  { apply Forall_forall. intros k Hk. apply in_map_iff in Hk as (id & <- & Hid). destruct (Hv id Hid) as (_ & F & L). split; [now apply fkey_length|].
    apply Forall_forall. intros v Hvv. apply in_signed_vertex. apply fkey_in in Hvv as [H|H]; [|lia]. rewrite Forall_forall in F. specialize (F v H). lia. }
  destruct (facet_order_ok (map srow ids) W 1 tsort W0 Hk) as (order & Eo & Hp & Hs); [rewrite map_length; clear - Hnum; lia|exact Hts|].
  cbn [facet_order Nat.ltb Nat.leb] in Eo. exists order, (map (fun i => nth i (map srow ids) []) order). split; [exact Eo|]. split; [|split].
  - apply omap_map. intros i Hi. apply nth_error_nth'. apply (Permutation_in _ (Permutation_sym Hp)), in_seq in Hi. lia.
  - transitivity (map (fun i => nth i (map srow ids) []) (seq 0 (length (map srow ids)))); [|apply Permutation_map, Hp].
    rewrite (map_seq_nth (fun i => nth i (map srow ids) []) (fun x => x) (map srow ids)); [now rewrite map_id|]. intros k s Hks. now apply nth_error_nth.
  - clear - Hs. induction Hs as [|i l Hl IH Hi]; cbn [map]; constructor; [exact IH|]. rewrite Forall_map. exact Hi.
Qed.

Definition alone (id : I) : Prop := forall id', In id' ids -> Permutation (V id) (V id') -> id' = id.

Lemma filter_rows x : In x ids -> forall rows, Permutation (map srow ids) rows ->
  length (filter (same_facet (srow x)) rows) = length (filter (fun y => same_facet (srow x) (srow y)) ids).
Proof.
  intros Hx rows Hp. transitivity (length (filter (same_facet (srow x)) (map srow ids))).
  - symmetry. apply Permutation_length. clear - Hp. induction Hp; cbn; repeat match goal with |- context [if ?b then _ else _] => destruct b end; eauto using Permutation.
  - clear. induction ids as [|y l IH]; [reflexivity|]. cbn [map filter]. destruct (same_facet (srow x) (srow y)); cbn [length]; now rewrite IH.
Qed.

Lemma same_iff x y : In x ids -> In y ids -> same_facet (srow x) (srow y) = true <-> srow x = srow y.
Proof. intros Hx Hy. apply same_facet_fkey; try (now apply v_nonneg); try (now apply Hv). now apply Hpart. Qed.

Lemma several_ok : exists perm rows groups vertices,
  sort_by_perm_cols 64 16 (map (fun j => map (fun row => nth j row 0%Z) (map srow ids)) (seq 0 W)) = Some perm /\
  omap (nth_error (map srow ids)) perm = Some rows /\ group_by (length rows) same_facet rows = Some groups /\
  omap group_vertices groups = Some vertices /\
  forall v, In v (concat vertices) <-> exists id, In id ids /\ alone id /\ In v (V id).
Proof.
  destruct sort_rows as (perm & rows & Ep & Er & Hp & Hs).
  assert (Hr : forall r, In r rows -> exists id, In id ids /\ r = srow id).
  { intros r H. apply (Permutation_in _ (Permutation_sym Hp)) in H. apply in_map_iff in H as (id & <- & H). eauto. }
  destruct (group_by_ok lex_le (fun r => r) same_facet lex_le_anti rows (length rows) (le_n _)) as (gs & Eg & Ec & _ & Hg).
  { intros a b Ha Hb. destruct (Hr a Ha) as (x & Hx & ->). destruct (Hr b Hb) as (y & Hy & ->). now apply same_iff. }
  { exact Hs. }
  set (gv := fun g : list (list Z) => match g with row0 :: _ => if length g =? 1 then firstn (trim_len row0) row0 else [] | [] => [] end).
  exists perm, rows, gs, (map gv gs). split; [exact Ep|]. split; [exact Er|]. split; [exact Eg|].
  (* number of rows in a group *)
  assert (Hlen : forall g x, In g gs -> In x ids -> In (srow x) g -> length g = length (filter (fun y => same_facet (srow x) (srow y)) ids)).
  { intros g x Hgg Hx Hxg. rewrite (Hg g (srow x) Hgg Hxg). now apply filter_rows. }
  assert (Hcls : forall x y, In x ids -> In y (filter (fun y => same_facet (srow x) (srow y)) ids) <-> In y ids /\ Permutation (V x) (V y)).
  { intros x y Hx. rewrite filter_In. split; intros (Hy & H); (split; [exact Hy|]); [apply srow_eq; try assumption; now apply same_iff|apply same_iff; try assumption; now apply srow_eq]. }
  assert (Hle2 : forall x, In x ids -> length (filter (fun y => same_facet (srow x) (srow y)) ids) <= 2).
  { intros x Hx. set (f := filter _ ids). assert (Nf : NoDup f) by (now apply NoDup_filter). pose proof (fun y => Hcls x y Hx) as Hc. fold f in Hc.
    destruct f as [|a [|b [|c t]]]; cbn [length]; try lia. exfalso.
    destruct (proj1 (Hc a) (or_introl eq_refl)) as (Ia & Pa). destruct (proj1 (Hc b) (or_intror (or_introl eq_refl))) as (Ib & Pb). destruct (proj1 (Hc c) (or_intror (or_intror (or_introl eq_refl)))) as (Icc & Pc).
    inversion Nf as [|? ? N1 N2]; subst. inversion N2 as [|? ? N3 _]; subst. cbn [In] in N1, N3.
    destruct (Htwo a b c Ia Ib Icc) as [E|[E|E]]; [now rewrite <- Pa|now rewrite <- Pa| | |]; subst; tauto. }
  assert (Hgs : forall g, In g gs -> exists x t, g = srow x :: t /\ In x ids).
  { intros g Hgg. assert (Hne : g <> []).
    { intros ->. clear - Eg Hgg. revert gs Eg Hgg. generalize (length rows) as fuel. intro fuel. revert rows. induction fuel as [|f IH]; intros [|r rows] gs Eg Hgg; cbn [group_by] in Eg.
      - injection Eg as <-. destruct Hgg. - discriminate. - injection Eg as <-. destruct Hgg.
      - destruct (group_by f same_facet (skipn (prefix_len (same_facet r) (r :: rows)) (r :: rows))) as [rest|] eqn:E; [|discriminate]. cbn [obind] in Eg. injection Eg as <-. destruct Hgg as [H|H]; [|exact (IH _ _ E H)].
        cbn [prefix_len] in H. assert (same_facet r r = true) as R by (unfold same_facet; now apply zrow_eqb_eq). rewrite R in H. discriminate. }
    destruct g as [|r t]; [congruence|]. assert (Hin : In r rows) by (rewrite <- Ec; apply in_concat; exists (r :: t); split; [exact Hgg|now left]).
    destruct (Hr r Hin) as (x & Hx & ->). eauto. }
  split.
  - apply omap_map. intros g Hgg. destruct (Hgs g Hgg) as (x & t & -> & Hx). unfold gv, group_vertices. pose proof (Hlen _ x Hgg Hx (or_introl eq_refl)) as L. pose proof (Hle2 x Hx) as L2. rewrite <- L in L2.
    destruct (length (srow x :: t) =? 1); [reflexivity|]. destruct (Nat.ltb_spec 2 (length (srow x :: t))); [lia|reflexivity].
  - intro v. rewrite in_concat. split.
    + intros (l & Hl & Hvl). apply in_map_iff in Hl as (g & <- & Hgg). destruct (Hgs g Hgg) as (x & t & -> & Hx). unfold gv in Hvl.
      destruct (Nat.eqb_spec (length (srow x :: t)) 1) as [L|_]; [|destruct Hvl]. exists x. split; [exact Hx|]. split.
      * intros y Hy Pxy. rewrite (Hlen _ x Hgg Hx (or_introl eq_refl)) in L. pose proof (fun y => Hcls x y Hx) as Hc. revert Hc L. generalize (filter (fun y => same_facet (srow x) (srow y)) ids). intros f Hc L.
        assert (Iy : In y f) by (apply Hc; auto). assert (Ix : In x f) by (apply Hc; auto). destruct f as [|z [|? ?]]; cbn in L; try lia. destruct Iy as [<-|[]]. destruct Ix as [<-|[]]. reflexivity.
      * unfold srow in Hvl. rewrite trim_len_fkey, firstn_fkey in Hvl; [now rewrite isort_in in Hvl|now apply v_nonneg|now apply Hv].
    + intros (x & Hx & Hal & Hvx). assert (Hxr : In (srow x) rows) by (apply (Permutation_in _ Hp), in_map, Hx). rewrite <- Ec in Hxr. apply in_concat in Hxr as (g & Hgg & Hxg).
      exists (gv g). split; [now apply in_map|]. pose proof (Hlen g x Hgg Hx Hxg) as L.
      assert (L1 : length g = 1).
      { rewrite L. pose proof (fun y => Hcls x y Hx) as Hc. assert (Nf : NoDup (filter (fun y => same_facet (srow x) (srow y)) ids)) by (now apply NoDup_filter). revert Hc Nf.
        generalize (filter (fun y => same_facet (srow x) (srow y)) ids). intros f Hc Nf. assert (Ix : In x f) by (apply Hc; auto). destruct f as [|a [|b t]]; [destruct Ix|reflexivity|]. exfalso.
        assert (a = x) by (apply Hal; [now apply (Hc a); left|apply (Hc a); now left]). assert (b = x) by (apply Hal; [apply (Hc b); right; now left|apply (Hc b); right; now left]).
        subst. inversion Nf as [|? ? N _]; subst. apply N. now left. }
      destruct g as [|r [|? ?]]; cbn in L1; try lia. destruct Hxg as [->|[]]. unfold gv. cbn [length Nat.eqb]. unfold srow. rewrite trim_len_fkey, firstn_fkey; [now rewrite isort_in|now apply v_nonneg|now apply Hv].
Qed.
End Several.
