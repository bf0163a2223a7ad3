(** Proofs for Cells: transpose and apply_permutation. *)
From Coq Require Import Permutation.
From Verif Require Import Base BaseProofs Algo AlgoProofs CellTypes Cells CellsSpec CellsPop CellsTri CellsTet CellsBlocks CellsProofs PlazaOrder.
Open Scope Z_scope.

Lemma permutation_ival p n : Permutation p (ival 0 n) -> is_permutation p n.
Proof.
  intros P. split.
  - apply (Permutation_NoDup (Permutation_sym P)), ival_nodup.
  - intros x. split.
    + intros H. apply (Permutation_in _ P) in H. apply ival_in in H. lia.
    + intros H. apply (Permutation_in _ (Permutation_sym P)). apply ival_in. lia.
Qed.
Lemma ival_permutation p n : is_permutation p n -> Permutation p (ival 0 n).
Proof.
  intros [ND H]. apply NoDup_Permutation; [exact ND|apply ival_nodup|].
  intros x. rewrite H, ival_in. lia.
Qed.
Lemma permutation_len p n : 0 <= n -> is_permutation p n -> zlen p = n.
Proof. intros Hn H. rewrite (ival_permutation p n H). now apply ival_len. Qed.
Lemma permutation_nonneg p n : 0 < zlen p -> is_permutation p n -> zlen p = n.
Proof.
  intros Hp H. apply permutation_len; [|exact H]. destruct p as [|x p]; [cbn in Hp; lia|].
  destruct H as [_ H]. specialize (H x). destruct H as [H _]. specialize (H (or_introl eq_refl)). lia.
Qed.

Lemma transpose_ok p n : 0 <= n <= 65536 -> is_permutation p n ->
  exists q, transpose p = Some q /\ length q = length p /\ inverse p q.
Proof.
  intros Hn Hp. pose proof (permutation_len p n ltac:(lia) Hp) as Hl. destruct Hp as [ND Hin].
  assert (At : forall i x, nth_error p i = Some x -> (i < length p)%nat /\ 0 <= x < n /\ exists k, x = Z.of_nat k /\ (k < length p)%nat).
  { intros i x E. split; [now apply nth_error_bound in E|]. apply nth_error_In, Hin in E.
    split; [exact E|]. exists (Z.to_nat x). lia. }
  unfold transpose.
  destruct (ofold_prefix_ind (fun t i => x <- nth_error p i ;; upd t (Z.to_nat x) (w16 (Z.of_nat i)))
    (fun pre t => length t = length p /\ forall i x, In i pre -> nth_error p i = Some (Z.of_nat x) -> nth_error t x = Some (Z.of_nat i))
    (seq 0 (length p)) (repeat 0 (length p))) as (q & E & Lq & Hq).
  - split; [apply repeat_length|]. intros i x [].
  - intros pre i post t El [Lt Ht].
    assert (Hi : (i < length p)%nat).
    { assert (In i (seq 0 (length p))) by (rewrite El; apply in_or_app; right; now left). apply in_seq in H. lia. }
    destruct (nth_error p i) as [x|] eqn:Ex; [|apply nth_error_None in Ex; lia].
    destruct (At i x Ex) as (_ & Hx & k & Ek & Hk). cbn [obind]. rewrite Ek, Nat2Z.id.
    destruct (upd_some t k (w16 (Z.of_nat i)) ltac:(lia)) as (t' & Et). exists t'. split; [exact Et|].
    split; [rewrite (upd_length _ _ _ _ Et); exact Lt|].
    intros i' x' Hi' Ex'. rewrite (upd_nth _ _ _ x' _ Et). destruct (Nat.eqb_spec k x') as [Ekx|Nkx].
    + rewrite w16_id by lia. do 2 f_equal. rewrite <- Ekx, <- Ek in Ex'.
      apply (proj1 (NoDup_nth_error p) ND); [exact Hi|congruence].
    + apply in_app_or in Hi'. destruct Hi' as [Hi'|[Hi'|[]]]; [now apply Ht|].
      exfalso. apply Nkx. rewrite <- Hi', Ex, Ek in Ex'. injection Ex' as Ex'. lia.
  - exists q. split; [exact E|]. split; [exact Lq|].
    assert (Fw : forall i x, nth_error p i = Some (Z.of_nat x) -> nth_error q x = Some (Z.of_nat i)).
    { intros i x Ex. apply Hq; [|exact Ex]. apply in_seq. apply At in Ex. lia. }
    intros i x. split; [apply Fw|]. intros Ex.
    assert (Hx : (x < length p)%nat) by (apply nth_error_bound in Ex; lia).
    assert (Ix : In (Z.of_nat x) p) by (apply Hin; lia).
    apply In_nth_error in Ix. destruct Ix as (j & Ej). pose proof (Fw j x Ej) as Ej'.
    assert (j = i) by (rewrite Ex in Ej'; injection Ej' as Ej'; lia). congruence.
Qed.

Lemma inverse_sym p q : inverse p q -> inverse q p.
Proof. intros H i x. symmetry. apply H. Qed.
Lemma inverse_permutation p q n : 0 <= n -> is_permutation p n -> length q = length p -> inverse p q ->
  (forall x, In x q -> 0 <= x) -> is_permutation q n.
Proof.
  intros Hn Hp Lq Hi H0. pose proof (permutation_len p n Hn Hp) as Hl.
  assert (Z0 : forall i y, nth_error q i = Some y -> y = Z.of_nat (Z.to_nat y)).
  { intros i y E. apply nth_error_In, H0 in E. lia. }
  split.
  - apply NoDup_nth_error. intros i j Hb E.
    destruct (nth_error q i) as [y|] eqn:Ey; [|apply nth_error_None in Ey; lia]. symmetry in E.
    pose proof (Z0 _ _ Ey) as Ky. rewrite Ky in Ey, E. apply Hi in Ey. apply Hi in E. rewrite Ey in E. injection E as E. lia.
  - intros x. split.
    + intros Hx. pose proof (H0 x Hx). apply In_nth_error in Hx. destruct Hx as (i & Ei).
      rewrite (Z0 _ _ Ei) in Ei. apply Hi in Ei. apply nth_error_bound in Ei. lia.
    + intros Hx. destruct (nth_error p (Z.to_nat x)) as [y|] eqn:Ey; [|apply nth_error_None in Ey; lia].
      assert (Hy : 0 <= y) by (apply nth_error_In, (proj2 Hp) in Ey; lia).
      replace y with (Z.of_nat (Z.to_nat y)) in Ey by lia. apply Hi in Ey.
      apply nth_error_In in Ey. now rewrite Z2Nat.id in Ey by lia.
Qed.
Lemma transpose_range p q : transpose p = Some q -> forall x, In x q -> 0 <= x < 65536.
Proof.
  unfold transpose. intros E. revert E.
  assert (G : forall l t t', (forall x, In x t -> 0 <= x < 65536) ->
     ofold (fun t i => x <- nth_error p i ;; upd t (Z.to_nat x) (w16 (Z.of_nat i))) l t = Some t' ->
     forall x, In x t' -> 0 <= x < 65536).
  { induction l as [|i l IH]; intros t t' Ht E; cbn [ofold] in E.
    - now injection E as <-.
    - destruct (nth_error p i) as [y|]; cbn [obind] in E; [|discriminate].
      destruct (upd t (Z.to_nat y) (w16 (Z.of_nat i))) as [t1|] eqn:E1; cbn [obind] in E; [|discriminate].
      revert E. apply IH. intros x Hx. apply In_nth_error in Hx. destruct Hx as (j & Ej).
      rewrite (upd_nth _ _ _ j _ E1) in Ej. destruct (Z.to_nat y =? j)%nat.
      + injection Ej as <-. unfold w16. apply Z.mod_pos_bound. lia.
      + apply Ht. eapply nth_error_In. exact Ej. }
  apply G. intros x Hx. apply repeat_spec in Hx. lia.
Qed.

Lemma inverse_unique p q q' : inverse p q -> inverse p q' -> length q = length q' ->
  (forall x, In x q -> 0 <= x) -> (forall x, In x q' -> 0 <= x) -> q = q'.
Proof.
  intros H H' L Z0 Z0'. apply nth_error_ext. intros x.
  destruct (nth_error q x) as [y|] eqn:E.
  - assert (0 <= y) by (apply Z0; eapply nth_error_In; exact E).
    replace y with (Z.of_nat (Z.to_nat y)) in E |- * by lia. apply H in E. apply H' in E. now rewrite E.
  - symmetry. apply nth_error_None. apply nth_error_None in E. lia.
Qed.

Lemma transpose_statement p n : 0 <= n <= 65536 -> is_permutation p n ->
  exists q, transpose p = Some q /\ is_permutation q n /\ inverse p q /\ transpose q = Some p.
Proof.
  intros Hn Hp. destruct (transpose_ok p n Hn Hp) as (q & E & L & I).
  assert (Q0 : forall x, In x q -> 0 <= x) by (intros x Hx; apply (transpose_range p q E x Hx)).
  pose proof (inverse_permutation p q n ltac:(lia) Hp L I Q0) as Hq.
  exists q. split; [exact E|]. split; [exact Hq|]. split; [exact I|].
  destruct (transpose_ok q n Hn Hq) as (r & Er & Lr & Ir). rewrite Er. f_equal.
  apply (inverse_unique q r p Ir (inverse_sym _ _ I)); [lia| |].
  - intros x Hx. apply (transpose_range q r Er x Hx).
  - intros x Hx. apply (proj2 Hp) in Hx. lia.
Qed.

Lemma lagrange_pos t d n : lagrange_nodes t d n -> 1 <= d -> 0 <= n.
Proof. intros H Hd. destruct H; nia. Qed.
Lemma perm_vtk_statement t d n : lagrange_nodes t d n -> 1 <= d -> n <= 65536 ->
  exists p q, perm_vtk t n = Some p /\ transpose p = Some q
    /\ is_permutation p n /\ is_permutation q n /\ inverse p q.
Proof.
  intros H Hd Hn. pose proof (lagrange_pos t d n H Hd) as H0.
  destruct (vtk_map_ok t d n H Hd Hn) as (q & E & P). apply permutation_ival in P.
  destruct (transpose_statement q n ltac:(lia) P) as (p & Ep & Pp & I & Eq).
  exists p, q. unfold perm_vtk. rewrite E. cbn [obind]. split; [exact Ep|]. split; [exact Eq|].
  split; [exact Pp|]. split; [exact P|]. now apply inverse_sym.
Qed.

(** * Layouts that are not supported *)
Ltac table n := destruct n as [|n|n]; try discriminate; do 5 (try (destruct n as [n|n|]; try discriminate)).
Lemma tet_root_nonneg n k : forall f z, 0 <= z -> tet_root f z n = Some k -> 0 <= k.
Proof.
  induction f as [|f IH]; intros z Hz Er; cbn [tet_root] in Er; [discriminate|].
  destruct (z * (z + 1) * (z + 2) <? 6 * n); [apply (IH (z + 1)); [lia|exact Er]|injection Er as <-; lia].
Qed.
Lemma vtk_map_known t n m : t <> Point -> 1 < n -> vtk_map t n = Some m -> exists d, 1 <= d /\ lagrange_nodes t d n.
Proof.
  intros Ht Hn E. destruct t; cbn [vtk_map] in E.
  - congruence.
  - exists (n - 1). split; [lia|]. replace n with (n - 1 + 1) at 2 by ring. constructor.
  - unfold vtk_triangle, cell_degree in E. set (k := (Z.sqrt (1 + 8 * n) - 1) / 2) in E. clearbody k.
    destruct (Z.eqb_spec (2 * n) (k * (k + 1))) as [Ek|]; [|discriminate].
    exists (Z.max (k - 1) (- k - 2)). split.
    + destruct (Z.le_gt_cases 2 k) as [|G1]; [lia|]. destruct (Z.le_gt_cases k (-3)) as [|G2]; [lia|].
      assert (C : k = -2 \/ k = -1 \/ k = 0 \/ k = 1) by lia.
      destruct C as [C|[C|[C|C]]]; rewrite C in Ek; lia.
    + constructor. rewrite Ek. destruct (Z.max_spec (k - 1) (- k - 2)) as [[_ M]|[_ M]]; rewrite M; ring.
  - unfold vtk_tetrahedron, cell_degree in E.
    destruct (tet_root (S (Z.to_nat n)) 0 n) as [k|] eqn:Er; cbn [obind] in E; [|discriminate].
    destruct (Z.eqb_spec (k * (k + 1) * (k + 2)) (6 * n)) as [Ek|]; [|discriminate].
    assert (Hk : 0 <= k).
    { eapply tet_root_nonneg; [|exact Er]. lia. }
    exists (k - 1). split; [|constructor; rewrite <- Ek; ring].
    destruct (Z.eq_dec k 0) as [K|K]; [rewrite K in Ek; lia|].
    destruct (Z.eq_dec k 1) as [K1|K1]; [rewrite K1 in Ek; lia|lia].
  - unfold vtk_quadrilateral, cell_degree in E. pose proof (Z.sqrt_nonneg n) as Hk. set (k := Z.sqrt n) in *. clearbody k.
    destruct (Z.eqb_spec n (k * k)) as [Ek|]; [|discriminate].
    exists (k - 1). split; [nia|]. replace n with ((k - 1 + 1) * (k - 1 + 1)) by (rewrite Ek; ring). constructor.
  - unfold vtk_pyramid in E. table n; solve [exists 1; split; [lia|constructor] | exists 2; split; [lia|constructor; lia]].
  - unfold vtk_wedge in E. table n; solve [exists 1; split; [lia|constructor] | exists 2; split; [lia|constructor; lia]].
  - unfold vtk_hexahedron, cell_degree in E. destruct (Z.eqb_spec n 20) as [E20|_].
    { exists 2. split; [lia|]. rewrite E20. constructor. }
    assert (Hk : 0 <= cube_root n) by (unfold cube_root; lia). set (k := cube_root n) in *. clearbody k.
    destruct (Z.eqb_spec n (k * k * k)) as [Ek|]; [|discriminate].
    exists (k - 1). split; [nia|]. replace n with ((k - 1 + 1) * (k - 1 + 1) * (k - 1 + 1)) by (rewrite Ek; ring). constructor.
Qed.
Lemma perm_vtk_known t n p : t <> Point -> 1 < n -> perm_vtk t n = Some p -> exists d, 1 <= d /\ lagrange_nodes t d n.
Proof.
  unfold perm_vtk. intros Ht Hn E. destruct (vtk_map t n) as [m|] eqn:Em; [|discriminate]. eapply vtk_map_known; eassumption.
Qed.
Lemma wide_statement t n p : 65536 < n -> perm_vtk t n = Some p -> ~ is_permutation p n.
Proof.
  unfold perm_vtk. intros Hn E [_ H]. destruct (vtk_map t n) as [m|]; cbn [obind] in E; [|discriminate].
  pose proof (transpose_range m p E 65536) as R. destruct (H 65536) as [_ H']. specialize (R (H' ltac:(lia))). lia.
Qed.

(** * Gmsh *)
Lemma gmsh_tables t n m : t <> Point -> t <> Interval -> gmsh_map t n = Some m -> Permutation m (range n) /\ gmsh_nodes t n.
Proof.
  intros Hp Hi E. destruct t; try congruence; unfold gmsh_map in E; table n;
    (split; [injection E as <-; apply perm_range; reflexivity|]).
  all: first [ solve [apply (gn_lagrange _ 1); [tauto|lia|constructor; reflexivity]]
             | solve [apply (gn_lagrange _ 2); [tauto|lia|constructor; reflexivity]]
             | solve [apply (gn_lagrange _ 3); [tauto|lia|constructor; reflexivity]]
             | exact (gn_lagrange Quadrilateral 1 _ ltac:(tauto) ltac:(lia) (ln_quadrilateral 1))
             | exact (gn_lagrange Quadrilateral 2 _ ltac:(tauto) ltac:(lia) (ln_quadrilateral 2))
             | exact (gn_lagrange Quadrilateral 3 _ ltac:(tauto) ltac:(lia) (ln_quadrilateral 3))
             | exact (gn_hexahedron 1 ltac:(lia)) | exact (gn_hexahedron 2 ltac:(lia))
             | solve [apply (gn_other _ 1); [tauto|constructor]]
             | solve [apply (gn_other _ 2); [tauto|constructor; lia]] ].
Qed.
Lemma gmsh_supported t n : gmsh_nodes t n -> exists m, gmsh_map t n = Some m.
Proof.
  intros H. destruct H as [|d Hd|t d n Ht Hd H|d Hd|t d n Ht H].
  - eexists. reflexivity.
  - eexists. reflexivity.
  - assert (D : d = 1 \/ d = 2 \/ d = 3) by lia. clear Hd.
    inversion H; subst; try (destruct Ht as [Ht|[Ht|Ht]]; discriminate); clear Ht;
      destruct D as [D|[D|D]]; rewrite D in *; clear D;
      try (match goal with K : _ * n = _ |- _ => first
        [assert (n = 3) by lia | assert (n = 6) by lia | assert (n = 10) by lia | assert (n = 4) by lia | assert (n = 20) by lia]; subst n end);
      eexists; reflexivity.
  - assert (D : d = 1 \/ d = 2) by lia. destruct D as [D|D]; rewrite D; eexists; reflexivity.
  - inversion H; subst; try (destruct Ht as [Ht|Ht]; discriminate); try (eexists; reflexivity);
      match goal with K : _ \/ _ |- _ => destruct K as [K|K]; try discriminate; subst end; eexists; try reflexivity.
Qed.

Lemma gmsh_statement t n p : t <> Point -> n <= 65536 -> perm_gmsh t n = Some p -> is_permutation p n.
Proof.
  unfold perm_gmsh. intros Ht Hn E. destruct (gmsh_map t n) as [m|] eqn:Em; cbn [obind] in E; [|discriminate].
  assert (P : is_permutation m n).
  { destruct t; [congruence| | | | | | |];
      try (apply permutation_ival; rewrite ival_0; apply (gmsh_tables _ _ _ Ht ltac:(discriminate) Em)).
    injection Em as <-. rewrite iota_ival by lia. now apply permutation_ival. }
  destruct (Z.le_gt_cases 0 n) as [H0|H0].
  - destruct (transpose_statement m n ltac:(lia) P) as (q & Eq & Pq & _). rewrite Eq in E. now injection E as <-.
  - destruct m as [|x m]; [injection E as <-; exact P|].
    destruct P as [_ P]. specialize (P x). destruct P as [P _]. specialize (P (or_introl eq_refl)). lia.
Qed.
Lemma gmsh_works t n : gmsh_nodes t n -> n <= 65536 -> exists p, perm_gmsh t n = Some p /\ is_permutation p n.
Proof.
  intros H Hn. assert (C : t = Point \/ t <> Point) by (destruct t; (now left) || (right; discriminate)).
  destruct C as [C|C].
  - rewrite C in *. assert (n = 1).
    { inversion H; subst; try reflexivity; match goal with K : _ \/ _ |- _ => repeat destruct K as [K|K]; discriminate end. }
    subst n. exists [0]. split; [reflexivity|]. apply permutation_ival. reflexivity.
  - destruct (gmsh_supported t n H) as (m & Em). unfold perm_gmsh.
    assert (P : is_permutation m n).
    { destruct t; [congruence| | | | | | |];
        try (apply permutation_ival; rewrite ival_0; apply (gmsh_tables _ _ _ C ltac:(discriminate) Em)).
      injection Em as <-. rewrite iota_ival by lia. now apply permutation_ival. }
    assert (H0 : 0 <= n).
    { destruct H as [|d Hd|t d n Ht Hd H|d Hd|t d n Ht H]; try lia; try nia.
      - apply (lagrange_pos t d n H). lia.
      - apply (lagrange_pos t d n H). destruct H; try lia; destruct Ht; discriminate. }
    destruct (transpose_statement m n ltac:(lia) P) as (q & Eq & Pq & _).
    exists q. rewrite Em. cbn [obind]. split; [exact Eq|exact Pq].
Qed.
Lemma gmsh_known t n p : t <> Point -> t <> Interval -> perm_gmsh t n = Some p -> gmsh_nodes t n.
Proof.
  unfold perm_gmsh. intros H1 H2 E. destruct (gmsh_map t n) as [m|] eqn:Em; [|discriminate].
  apply (gmsh_tables t n m H1 H2 Em).
Qed.

(** * apply_permutation *)
Lemma at_row {A} (l : list A) cols c i : (i < cols)%nat ->
  nth_error (firstn cols (skipn (c * cols) l)) i = nth_error l (c * cols + i).
Proof.
  intros H. generalize (c * cols)%nat. intros k. revert l. induction k as [|k IH]; intros l.
  - cbn [skipn Nat.add]. revert cols H l. clear. induction i as [|i IH]; intros cols H l; (destruct cols; [lia|]);
      (destruct l; [reflexivity|]); cbn [firstn nth_error]; [reflexivity|]. apply IH. lia.
  - destruct l as [|x l]; [cbn [skipn]; rewrite firstn_nil; destruct i; reflexivity|]. apply IH.
Qed.
Lemma apply_ok {A} (cells : list A) rows cols p : length cells = (rows * cols)%nat -> is_permutation p (Z.of_nat cols) ->
  exists new, apply_permutation cells rows cols p = Some new /\ permuted_rows cells new rows cols p.
Proof.
  intros Hl Hp. pose proof (permutation_len p (Z.of_nat cols) ltac:(lia) Hp) as Lp.
  assert (Lp' : length p = cols) by lia. unfold apply_permutation.
  rewrite Hl, Nat.eqb_refl. cbn [negb]. rewrite Lp', Nat.eqb_refl. cbn [negb].
  set (F := fun c => omap (fun i => x <- nth_error p i ;; nth_error (firstn cols (skipn (c * cols) cells)) (Z.to_nat x)) (seq 0 cols)).
  assert (HF : forall c, In c (seq 0 rows) -> exists r, F c = Some r).
  { intros c Hc. apply in_seq in Hc. apply omap_some. intros i Hi. apply in_seq in Hi.
    destruct (nth_error p i) as [x|] eqn:Ex; [|apply nth_error_None in Ex; lia]. cbn [obind].
    assert (Hx : 0 <= x < Z.of_nat cols) by (apply (proj2 Hp); eapply nth_error_In; exact Ex).
    rewrite at_row by lia. destruct (nth_error cells (c * cols + Z.to_nat x)) as [y|] eqn:Ey; [now exists y|].
    apply nth_error_None in Ey. nia. }
  change (omap _ (seq 0 rows)) with (omap F (seq 0 rows)).
  destruct (omap_some F (seq 0 rows) HF) as (rs & Er). rewrite Er. cbn [obind]. exists (concat rs).
  split; [reflexivity|].
  assert (Row : forall c, (c < rows)%nat -> exists r, nth_error rs c = Some r /\ F c = Some r).
  { intros c Hc. apply (omap_nth F _ rs Er). now rewrite nth_error_seq by lia. }
  assert (Hlen : forall r, In r rs -> length r = cols).
  { intros r Hr. apply In_nth_error in Hr. destruct Hr as (c & Ec).
    assert (Hc : (c < rows)%nat). { apply nth_error_bound in Ec. apply omap_length in Er. rewrite seq_length in Er. lia. }
    destruct (Row c Hc) as (r' & E1 & E2). rewrite Ec in E1. injection E1 as <-.
    apply omap_length in E2. now rewrite seq_length in E2. }
  split.
  - rewrite (concat_len rs cols Hlen). apply omap_length in Er. rewrite seq_length in Er. lia.
  - intros c i x Hc Hi Ex. destruct (Row c Hc) as (r & E1 & E2). rewrite (nth_concat rs cols Hlen c r i E1 Hi).
    destruct (omap_nth _ _ r E2 i i) as (y & Ey & Ey'); [now rewrite nth_error_seq by lia|].
    rewrite Ex in Ey'. cbn [obind] in Ey'. rewrite Nat2Z.id in Ey'.
    assert (Hx : (x < cols)%nat). { assert (0 <= Z.of_nat x < Z.of_nat cols) by (apply (proj2 Hp); eapply nth_error_In; exact Ex). lia. }
    rewrite at_row in Ey' by exact Hx. now rewrite Ey, Ey'.
Qed.
Lemma round_trip {A} (cells new : list A) rows cols p q : length cells = (rows * cols)%nat ->
  is_permutation p (Z.of_nat cols) -> is_permutation q (Z.of_nat cols) -> inverse p q ->
  apply_permutation cells rows cols p = Some new -> apply_permutation new rows cols q = Some cells.
Proof.
  intros Hl Hp Hq I E. destruct (apply_ok cells rows cols p Hl Hp) as (new' & E' & L' & R').
  rewrite E in E'. injection E' as <-.
  destruct (apply_ok new rows cols q L' Hq) as (old & Eo & Lo & Ro). rewrite Eo. f_equal.
  apply nth_error_ext. intros k. destruct (Nat.ltb_spec k (rows * cols)) as [Hk|Hk].
  2:{ rewrite !(proj2 (nth_error_None _ _)) by lia. reflexivity. }
  assert (Hc : cols <> 0%nat) by (intros C; rewrite C, Nat.mul_0_r in Hk; lia).
  pose proof (Nat.div_mod k cols Hc) as Ek. pose proof (Nat.mod_upper_bound k cols Hc) as Hi.
  assert (Hr : (k / cols < rows)%nat) by (apply Nat.div_lt_upper_bound; lia).
  set (c := (k / cols)%nat) in *. set (i := (k mod cols)%nat) in *. clearbody c i.
  replace k with (c * cols + i)%nat by lia. clear Ek Hk.
  pose proof (permutation_len q (Z.of_nat cols) ltac:(lia) Hq) as Lq.
  destruct (nth_error q i) as [x|] eqn:Ex; [|apply nth_error_None in Ex; lia].
  assert (Hx : 0 <= x < Z.of_nat cols) by (apply (proj2 Hq); eapply nth_error_In; exact Ex).
  replace x with (Z.of_nat (Z.to_nat x)) in Ex by lia.
  rewrite (Ro c i _ Hr Hi Ex). apply R'; [exact Hr|lia|]. now apply I.
Qed.
Lemma apply_statement (A : Type) (cells : list A) rows cols p :
  length cells = (rows * cols)%nat -> is_permutation p (Z.of_nat cols) ->
  exists new, apply_permutation cells rows cols p = Some new /\ permuted_rows cells new rows cols p /\
    forall q, is_permutation q (Z.of_nat cols) -> inverse p q -> apply_permutation new rows cols q = Some cells.
Proof.
  intros Hl Hp. destruct (apply_ok cells rows cols p Hl Hp) as (new & E & R). exists new.
  split; [exact E|]. split; [exact R|]. intros q Hq I. now apply (round_trip cells new rows cols p q).
Qed.

Lemma apply_size {A} (cells : list A) rows cols p : length cells <> (rows * cols)%nat \/ length p <> cols ->
  apply_permutation cells rows cols p = None.
Proof.
  intro H. unfold apply_permutation. destruct (Nat.eqb_spec (length cells) (rows * cols)) as [E|N]; [|reflexivity]. cbn [negb].
  destruct (Nat.eqb_spec cols (length p)) as [E'|N]; [|reflexivity]. destruct H as [H|H]; congruence.
Qed.
