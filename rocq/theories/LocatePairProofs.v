From Verif Require Import Base BaseProofs Algo AlgoProofs World WorldProofs IndexMap IndexMapSpec IndexMapProofs ImSharedProofs Locate LocateSpec LocateProofs.
Open Scope nat_scope.

(** * Sorting both arrays *)
Definition one_one (l : list (nat * nat)) : Prop := forall x y, In x l -> In y l -> (fst x = fst y <-> snd x = snd y).

Lemma pair_eqb_fst x y (l : list (nat * nat)) : one_one l -> In x l -> In y l -> pair_eqb x y = (fst x =? fst y) /\ pair_eqb x y = (snd x =? snd y).
Proof.
  intros H Hx Hy. unfold pair_eqb. specialize (H x y Hx Hy).
  destruct (Nat.eqb_spec (fst x) (fst y)), (Nat.eqb_spec (snd x) (snd y)); cbn; tauto.
Qed.
Lemma unique_from_maps l : forall x, one_one (x :: l) ->
  unique_from Nat.eqb (fst x) (map fst l) = map fst (unique_from pair_eqb x l) /\
  unique_from Nat.eqb (snd x) (map snd l) = map snd (unique_from pair_eqb x l).
Proof.
  induction l as [|y l IH]; intros x H; [split; reflexivity|].
  cbn [map unique_from]. destruct (pair_eqb_fst x y _ H (or_introl eq_refl) (or_intror (or_introl eq_refl))) as (A & B).
  rewrite <- A, <- B. destruct (pair_eqb x y).
  - apply IH. intros u v Hu Hv. apply H; cbn in *; tauto.
  - destruct (IH y) as (C & D). { intros u v Hu Hv. apply H; cbn in *; tauto. }
    cbn [map]. now rewrite C, D.
Qed.
Lemma unique_maps l : one_one l -> unique Nat.eqb (map fst l) = map fst (unique pair_eqb l) /\ unique Nat.eqb (map snd l) = map snd (unique pair_eqb l).
Proof.
  destruct l as [|x l]; [split; reflexivity|]. intro H. cbn [map unique].
  destruct (unique_from_maps l x H) as (A & B). cbn [map]. now rewrite A, B.
Qed.

Lemma sort_both_ok Z : one_one Z -> exists U,
  sort_both (map fst Z) (map snd Z) = Some (map fst U, map snd U) /\ StronglySorted lt (map fst U) /\ forall z, In z U <-> In z Z.
Proof.
  intro H. unfold sort_both. rewrite map_length.
  set (S := isort pair_leb (combine (map fst Z) (seq 0 (length Z)))).
  assert (HS : Permutation (combine (map fst Z) (seq 0 (length Z))) S) by apply isort_perm.
  set (Y := map (fun ki => (fst ki, nth (snd ki) (map snd Z) 0)) S).
  assert (PY : Permutation Z Y).
  { unfold Y. rewrite <- HS. clear. replace (map _ _) with Z; [reflexivity|].
    assert (K : forall (l : list (nat * nat)) s (f : nat -> nat), (forall i z, nth_error l i = Some z -> f (s + i) = snd z) ->
      l = map (fun ki => (fst ki, f (snd ki))) (combine (map fst l) (seq s (length l)))).
    { induction l as [|z l IH]; intros s f Hf; [reflexivity|]. cbn [map length seq combine fst snd].
      rewrite <- (IH (Datatypes.S s) f).
      - rewrite <- (Nat.add_0_r s), (Hf 0 z eq_refl). now destruct z.
      - intros i z' Hz. rewrite <- (Hf (Datatypes.S i) z' Hz). f_equal. lia. }
    apply (K Z 0 (fun i => nth i (map snd Z) 0)). intros i z Hz. cbn [Nat.add].
    apply (map_nth_error snd) in Hz. now apply nth_error_nth. }
  assert (E0 : omap (nth_error (map fst Z)) (map snd S) = Some (map fst Y)).
  { unfold Y. rewrite map_map. cbn [fst].
    assert (K : forall ki, In ki S -> nth_error (map fst Z) (snd ki) = Some (fst ki)).
    { intros (k, i) Hin. apply (Permutation_in _ (Permutation_sym HS)) in Hin. cbn [fst snd].
      apply in_combine_nth in Hin as (j & A & B). pose proof (nth_error_bound _ _ _ B) as Hj. rewrite seq_length in Hj.
      rewrite nth_error_seq in B by exact Hj. injection B as <-. exact A. }
    revert K. generalize S as l. induction l as [|a l IH]; intro K; [reflexivity|]. cbn [map omap].
    rewrite (K a (or_introl eq_refl)). cbn [obind]. rewrite IH by (intros; apply K; now right). reflexivity. }
  assert (E1 : omap (nth_error (map snd Z)) (map snd S) = Some (map snd Y)).
  { unfold Y. rewrite map_map. cbn [snd].
    assert (K : forall ki, In ki S -> nth_error (map snd Z) (snd ki) = Some (nth (snd ki) (map snd Z) 0)).
    { intros (k, i) Hin. apply (Permutation_in _ (Permutation_sym HS)) in Hin. cbn [fst snd].
      apply in_combine_r, in_seq in Hin. apply nth_error_nth'. rewrite map_length. lia. }
    revert K. generalize S as l. induction l as [|a l IH]; intro K; [reflexivity|]. cbn [map omap].
    rewrite (K a (or_introl eq_refl)). cbn [obind]. rewrite IH by (intros; apply K; now right). reflexivity. }
  rewrite E0. cbn [obind]. rewrite E1. cbn [obind].
  assert (HY : one_one Y). { intros x y Hx Hy. apply H; eapply Permutation_in; try apply Permutation_sym, PY; assumption. }
  destruct (unique_maps Y HY) as (A & B). exists (unique pair_eqb Y). rewrite A, B. split; [reflexivity|]. split.
  - rewrite <- A.
    assert (SY : isort Nat.leb (map fst Y) = map fst Y).
    { apply nsort_unique; [|reflexivity]. apply SS_leb. unfold Y. rewrite map_map. cbn [fst].
      assert (SS : StronglySorted (fun x y => pair_leb x y = true) S) by apply psort_sorted.
      clear - SS. induction SS as [|a l SS IH F]; [constructor|]. cbn [map]. constructor; [exact IH|].
      rewrite Forall_forall in *. intros x Hx. apply in_map_iff in Hx as (y & <- & Hy).
      specialize (F y Hy). apply pair_leb_iff in F. apply Nat.leb_le. lia. }
    rewrite <- SY. apply sort_uniq_sorted.
  - intro z. rewrite (unique_in pair_eqb peqb_iff). split; intro K; eapply Permutation_in; try exact K; [apply Permutation_sym|]; exact PY.
Qed.

(** * Dof pairs of one rank *)
Lemma unrolled_dof bs row p d : unrolled bs row p = Some d <-> dof_at bs row p d.
Proof.
  unfold unrolled, dof_at. destruct (nth_error row (p / bs)) as [b|]; cbn [obind].
  - split.
    + intros [= <-]. eauto.
    + now intros (b' & [= <-] & ->).
  - split; [discriminate|]. now intros (b & [=] & _).
Qed.

Section Rank.
Variables (L : layout) (bs1 mb1 : nat) (m0 m1 : imap) (rows0 rows1 : nat -> list (list nat)) (ec ce : nat -> list (list nat)) (entities : nat -> list nat) (q : nat).
Hypothesis H : pair_ok L bs1 mb1 m0 m1 (rows0 q) (rows1 q) (ec q) (ce q) (entities q).

Lemma entity_dof_pairs_ok : exists l,
  entity_dof_pairs L bs1 rows0 rows1 (fun q => Some (ec q)) (fun q => Some (ce q)) entities q = Some l /\
  forall d, In d l <-> pair_lies_on L bs1 (rows0 q) (rows1 q) (ce q) (entities q) (fst d) (snd d).
Proof.
  unfold entity_dof_pairs.
  destruct (find_ok _ _ _ _ (pk_entities _ _ _ _ _ _ _ _ _ _ H)) as (pairs & Ep & F). rewrite Ep. cbn [obind].
  destruct (pk_bs _ _ _ _ _ _ _ _ _ _ H) as (Hb0 & Hb1 & _).
  destruct (omap_concat_in (fun '(c, i) =>
         row0 <- nth_error (rows0 q) c ;; row1 <- nth_error (rows1 q) c ;;
         if ly_bs L * length row0 =? bs1 * length row1 then
           cl <- nth_error (ly_closure L) i ;;
           r <- omap (fun index => omap (fun k =>
                  d0 <- unrolled (ly_bs L) row0 (ly_ebs L * index + k) ;;
                  d1 <- unrolled bs1 row1 (ly_ebs L * index + k) ;; Some (d0, d1)) (seq 0 (ly_ebs L))) cl ;;
           Some (concat r)
         else None)
      (fun ci d => exists p, closure_pos (ly_closure L) (ly_ebs L) (snd ci) p /\ matched (ly_bs L) bs1 (rows0 q) (rows1 q) (fst ci) p (fst d) (snd d)) pairs)
    as (r & Er & Hr).
  { intros (c, i) Hin. destruct (Forall2_in_r _ _ _ F _ Hin) as (e & _ & He). cbn [fst snd] in *.
    destruct (pk_cells _ _ _ _ _ _ _ _ _ _ H c i e He) as (row0 & row1 & E0 & E1 & El & Hp).
    rewrite E0, E1. cbn [obind]. rewrite El, Nat.eqb_refl.
    destruct He as (es & Ees & Ei). pose proof (en_count _ _ _ _ (pk_entities _ _ _ _ _ _ _ _ _ _ H) es (nth_error_In _ _ Ees)) as Hlen.
    apply nth_error_bound in Ei. destruct (nth_error_lt (ly_closure L) i ltac:(lia)) as (cl & Ecl). rewrite Ecl. cbn [obind].
    destruct (omap_concat_in (fun index => omap (fun k =>
                  d0 <- unrolled (ly_bs L) row0 (ly_ebs L * index + k) ;;
                  d1 <- unrolled bs1 row1 (ly_ebs L * index + k) ;; Some (d0, d1)) (seq 0 (ly_ebs L)))
      (fun index d => exists k, k < ly_ebs L /\ dof_at (ly_bs L) row0 (ly_ebs L * index + k) (fst d) /\ dof_at bs1 row1 (ly_ebs L * index + k) (snd d)) cl)
      as (y & Ey & Hy).
    { intros index Hi.
      destruct (omap_in (fun k =>
                  d0 <- unrolled (ly_bs L) row0 (ly_ebs L * index + k) ;;
                  d1 <- unrolled bs1 row1 (ly_ebs L * index + k) ;; Some (d0, d1))
        (fun k d => dof_at (ly_bs L) row0 (ly_ebs L * index + k) (fst d) /\ dof_at bs1 row1 (ly_ebs L * index + k) (snd d)) (seq 0 (ly_ebs L))) as (y & Ey & Hy).
      { intros k Hk. apply in_seq in Hk. set (p := ly_ebs L * index + k).
        assert (Hpl : p < ly_bs L * length row0) by (apply Hp; exists cl, index, k; repeat split; auto; lia).
        destruct (nth_error_lt row0 (p / ly_bs L)) as (a & Ea). { apply Nat.div_lt_upper_bound; lia. }
        destruct (nth_error_lt row1 (p / bs1)) as (b & Eb). { apply Nat.div_lt_upper_bound; lia. }
        exists (ly_bs L * a + p mod ly_bs L, bs1 * b + p mod bs1).
        assert (U0 : unrolled (ly_bs L) row0 p = Some (ly_bs L * a + p mod ly_bs L)) by (unfold unrolled; now rewrite Ea).
        assert (U1 : unrolled bs1 row1 p = Some (bs1 * b + p mod bs1)) by (unfold unrolled; now rewrite Eb).
        rewrite U0, U1. cbn [obind]. split; [reflexivity|]. intros (d0, d1). cbn [fst snd].
        rewrite <- !unrolled_dof, U0, U1. split; [now intros [= -> ->]|]. intros ([= <-] & [= <-]). reflexivity. }
      exists y. split; [exact Ey|]. intro d. rewrite Hy. split.
      - intros (k & Hk & K). apply in_seq in Hk. exists k. split; [lia|exact K].
      - intros (k & Hk & K). exists k. split; [apply in_seq; lia|exact K]. }
    rewrite Ey. cbn [obind]. exists (concat y). split; [reflexivity|]. intro d. rewrite Hy. unfold matched, closure_pos. split.
    - intros (index & Hi & k & Hk & A & B). exists (ly_ebs L * index + k). split; [exists cl, index, k; auto|]. exists row0, row1. auto.
    - intros (p & (cl' & index & k & Ecl' & Hi & Hk & ->) & row0' & row1' & E0' & E1' & A & B).
      rewrite Ecl in Ecl'. injection Ecl' as <-. rewrite E0 in E0'. injection E0' as <-. rewrite E1 in E1'. injection E1' as <-.
      exists index. split; [exact Hi|]. exists k. auto. }
  rewrite Er. cbn [obind]. exists (concat r). split; [reflexivity|].
  intro d. rewrite Hr. unfold pair_lies_on. split.
  - intros ((c, i) & Hin & p & A & B). destruct (Forall2_in_r _ _ _ F _ Hin) as (e & He & Hi). cbn [fst snd] in *.
    exists e, c. split; [exact He|]. exists i, p. auto.
  - intros (e & c & He & Ho). destruct (Forall2_in_l _ _ _ F _ He) as ((c', i') & Hin & Hi). cbn [fst snd] in Hi.
    destruct (pk_conforming _ _ _ _ _ _ _ _ _ _ H e c c' _ _ He (ex_intro _ i' Hi) Ho) as (i & p & A & B & C).
    rewrite (ith_fun _ _ _ _ _ (en_once _ _ _ _ (pk_entities _ _ _ _ _ _ _ _ _ _ H)) A Hi) in B.
    exists (c', i'). split; [exact Hin|]. exists p. auto.
Qed.

Lemma lies_matched d0 d1 : pair_lies_on L bs1 (rows0 q) (rows1 q) (ce q) (entities q) d0 d1 -> exists c p, matched (ly_bs L) bs1 (rows0 q) (rows1 q) c p d0 d1.
Proof. intros (e & c & _ & i & p & _ & _ & M). eauto. Qed.

Lemma pairs_here_ok : exists Z,
  pairs_here L bs1 rows0 rows1 (fun q => Some (ec q)) (fun q => Some (ce q)) entities q = Some (map fst Z, map snd Z) /\
  StronglySorted lt (map fst Z) /\
  forall d, In d Z <-> pair_lies_on L bs1 (rows0 q) (rows1 q) (ce q) (entities q) (fst d) (snd d).
Proof.
  unfold pairs_here. destruct entity_dof_pairs_ok as (l & El & Hl). rewrite El. cbn [obind].
  destruct (sort_both_ok l) as (Z & E & S & HZ).
  { intros x y Hx Hy. apply Hl, lies_matched in Hx as (c & p & A). apply Hl, lies_matched in Hy as (c' & p' & B).
    eapply (pk_one _ _ _ _ _ _ _ _ _ _ H); eauto. }
  exists Z. split; [exact E|]. split; [exact S|]. intro d. now rewrite HZ, Hl.
Qed.
End Rank.

(** * Exchange of the pairs *)
Lemma concat_pairs {X} (f g : X -> list nat) (Q : X -> nat * nat -> Prop) l :
  (forall x, In x l -> exists w, f x = map fst w /\ g x = map snd w /\ forall e, In e w <-> Q x e) ->
  exists W, concat (map f l) = map fst W /\ concat (map g l) = map snd W /\ forall e, In e W <-> exists x, In x l /\ Q x e.
Proof.
  induction l as [|x l IH]; intro H.
  - exists []. repeat split; auto; [intros []|intros (? & [] & _)].
  - destruct (H x (or_introl eq_refl)) as (w & A & B & C).
    destruct IH as (W & A' & B' & C'). { intros z Hz. apply H. now right. }
    exists (w ++ W). cbn [map concat]. rewrite !map_app, A, B, A', B'. split; [reflexivity|]. split; [reflexivity|].
    intro e. rewrite in_app_iff, C, C'. split.
    + intros [K|(z & Hz & K)]; [exists x|exists z]; cbn; auto.
    + intros (z & [<-|Hz] & K); [now left|right; eauto].
Qed.

Section World.
Variables (P : nat) (L : layout) (bs1 mb1 : nat) (maps0 maps1 : nat -> imap) (rows0 rows1 ec ce : nat -> list (list nat)) (entities : nat -> list nat).
Hypothesis Hmaps0 : maps_ok P maps0.
Hypothesis Hmaps1 : maps_ok P maps1.
Hypothesis Hp : forall q, q < P -> pair_ok L bs1 mb1 (maps0 q) (maps1 q) (rows0 q) (rows1 q) (ec q) (ce q) (entities q).
Hypothesis Hm : pairs_match P L bs1 mb1 maps0 maps1 rows0 rows1.

Notation on q := (pair_lies_on L bs1 (rows0 q) (rows1 q) (ce q) (entities q)).
Notation loc := (locate_dofs_pair P L bs1 mb1 maps0 maps1 rows0 rows1 (fun q => Some (ec q)) (fun q => Some (ce q)) entities).
Notation here := (pairs_here L bs1 rows0 rows1 (fun q => Some (ec q)) (fun q => Some (ce q)) entities).

Lemma pair_local r : r < P -> exists U, loc false r = Some (map fst U, map snd U) /\ StronglySorted lt (map fst U) /\
  forall d0 d1, In (d0, d1) U <-> on r d0 d1.
Proof.
  intro Hr. destruct (pairs_here_ok L bs1 mb1 (maps0 r) (maps1 r) rows0 rows1 ec ce entities r (Hp r Hr)) as (Z & E & S & H).
  exists Z. unfold locate_dofs_pair. rewrite E. cbn [obind]. split; [reflexivity|]. split; [exact S|].
  intros d0 d1. apply (H (d0, d1)).
Qed.

Lemma pair_remote r : r < P -> exists U, loc true r = Some (map fst U, map snd U) /\ StronglySorted lt (map fst U) /\
  forall d0 d1, In (d0, d1) U <-> on r d0 d1 \/ exists q e0 e1, q < P /\ adjacent maps0 r q /\ on q e0 e1 /\
    same_dof (ly_map_bs L) (maps0 q) e0 (maps0 r) d0 /\ same_dof mb1 (maps1 q) e1 (maps1 r) d1.
Proof.
  intro Hr. destruct (pk_bs _ _ _ _ _ _ _ _ _ _ (Hp r Hr)) as (Hb0 & Hb1 & Hmb0 & Hmb1).
  assert (HZ : exists Z : nat -> list (nat * nat), forall q, q < P -> here q = Some (map fst (Z q), map snd (Z q)) /\ forall d, In d (Z q) <-> on q (fst d) (snd d)).
  { exists (fun q => match here q with Some h => combine (fst h) (snd h) | None => [] end). intros q Hq.
    destruct (pairs_here_ok L bs1 mb1 (maps0 q) (maps1 q) rows0 rows1 ec ce entities q (Hp q Hq)) as (Z & E & _ & H).
    rewrite E. cbn [fst snd]. replace (combine (map fst Z) (map snd Z)) with Z; [auto|].
    clear. induction Z as [|(a, b) Z IH]; [reflexivity|]. cbn [map combine fst snd]. now rewrite <- IH. }
  destruct HZ as (Z & HZ).
  assert (V : forall q d, q < P -> In d (Z q) -> exists c p, matched (ly_bs L) bs1 (rows0 q) (rows1 q) c p (fst d) (snd d)).
  { intros q d Hq Hd. apply HZ in Hd; [|exact Hq]. eapply lies_matched, Hd. }
  assert (V0 : forall q d, q < P -> In d (Z q) -> fst d / ly_map_bs L < im_hi (maps0 q) - im_lo (maps0 q) + length (im_ghosts (maps0 q)) /\
     snd d / mb1 < im_hi (maps1 q) - im_lo (maps1 q) + length (im_ghosts (maps1 q))).
  { intros q d Hq Hd. destruct (V q d Hq Hd) as (c & p & M). eapply (pk_dofs _ _ _ _ _ _ _ _ _ _ (Hp q Hq)), M. }
  destruct (sym_graph P maps0 Hmaps0) as (HG & Hadj).
  unfold locate_dofs_pair. rewrite (proj1 (HZ r Hr)). cbn [obind fst snd].
  rewrite (get_remote_ok P maps0 (sym_neighbours maps0) (ly_map_bs L) _ (fun q => map fst (Z q)) r HG Hr Hmb0);
    [|intros q Hq; now rewrite (proj1 (HZ q Hq))|intros q d Hq Hd; apply in_map_iff in Hd as (z & <- & Hz); now apply V0].
  rewrite (get_remote_ok P maps1 (sym_neighbours maps0) mb1 _ (fun q => map snd (Z q)) r HG Hr Hmb1);
    [|intros q Hq; now rewrite (proj1 (HZ q Hq))|intros q d Hq Hd; apply in_map_iff in Hd as (z & <- & Hz); now apply V0].
  cbn [obind].
  destruct (concat_pairs
    (fun q => concat (map (fun d => dof_here (maps0 r) (ly_map_bs L) (glob (maps0 q) (ly_map_bs L) d)) (map fst (Z q))))
    (fun q => concat (map (fun d => dof_here (maps1 r) mb1 (glob (maps1 q) mb1 d)) (map snd (Z q))))
    (fun q e => exists z, In z (Z q) /\ same_dof (ly_map_bs L) (maps0 q) (fst z) (maps0 r) (fst e) /\ same_dof mb1 (maps1 q) (snd z) (maps1 r) (snd e))
    (sym_neighbours maps0 r)) as (W & E0 & E1 & HW).
  { intros q Hq. apply Hadj in Hq as (Hq & _); [|exact Hr]. rewrite !map_map.
    apply (concat_pairs (fun z => dof_here (maps0 r) (ly_map_bs L) (glob (maps0 q) (ly_map_bs L) (fst z))) (fun z => dof_here (maps1 r) mb1 (glob (maps1 q) mb1 (snd z)))).
    intros z Hz. destruct (V0 q z Hq Hz) as (A0 & A1). destruct (V q z Hq Hz) as (c & p & M).
    destruct (Hm q r c p _ _ Hq Hr M) as (M0 & M1).
    destruct (dof_here_ok P maps0 Hmaps0 r q (ly_map_bs L) (fst z) Hr Hmb0 A0) as [(e0 & D0 & S0)|(D0 & N0)],
             (dof_here_ok P maps1 Hmaps1 r q mb1 (snd z) Hr Hmb1 A1) as [(e1 & D1 & S1)|(D1 & N1)]; rewrite D0, D1.
    - exists [(e0, e1)]. split; [reflexivity|]. split; [reflexivity|]. intros (f0, f1). cbn [In fst snd]. split.
      + intros [[= <- <-]|[]]. auto.
      + intros (F0 & F1). left. rewrite (same_inj P maps0 Hmaps0 _ r _ _ _ _ Hr Hmb0 S0 F0), (same_inj P maps1 Hmaps1 _ r _ _ _ _ Hr Hmb1 S1 F1). reflexivity.
    - destruct (M0 e0 S0) as (c' & p' & e1 & S1 & _). elim (N1 e1 S1).
    - destruct (M1 e1 S1) as (e0 & S0). elim (N0 e0 S0).
    - exists []. split; [reflexivity|]. split; [reflexivity|]. intro e. split; [intros []|]. intros (F0 & _). elim (N0 _ F0). }
  rewrite E0, E1, <- !map_app, !map_length, Nat.eqb_refl.
  assert (VW : forall d, In d (Z r ++ W) -> exists c p, matched (ly_bs L) bs1 (rows0 r) (rows1 r) c p (fst d) (snd d)).
  { intros d Hd. apply in_app_iff in Hd as [Hd|Hd]; [now apply V|].
    apply HW in Hd as (q & Hq & z & Hz & S0 & S1). apply Hadj in Hq as (Hq & _); [|exact Hr].
    destruct (V q z Hq Hz) as (c & p & M). destruct (proj1 (Hm q r c p _ _ Hq Hr M) _ S0) as (c' & p' & e1 & S1' & M').
    exists c', p'. now rewrite (same_inj P maps1 Hmaps1 _ r _ _ _ _ Hr Hmb1 S1 S1'). }
  destruct (sort_both_ok (Z r ++ W)) as (U & E & S & HU).
  { intros x y Hx Hy. destruct (VW x Hx) as (c & p & A), (VW y Hy) as (c' & p' & B). eapply (pk_one _ _ _ _ _ _ _ _ _ _ (Hp r Hr)); eauto. }
  rewrite E. cbn [obind fst snd]. rewrite !map_length, Nat.eqb_refl. exists U. split; [reflexivity|]. split; [exact S|].
  intros d0 d1. rewrite HU, in_app_iff, (proj2 (HZ r Hr)), HW. cbn [fst snd]. split; (intros [K|K]; [now left|right]).
  - destruct K as (q & Hq & (e0, e1) & Hz & S0 & S1). apply Hadj in Hq as (Hq & A); [|exact Hr].
    exists q, e0, e1. split; [exact Hq|]. split; [exact A|]. split; [now apply (HZ q Hq) in Hz|]. auto.
  - destruct K as (q & e0 & e1 & Hq & A & O & S0 & S1). exists q. split; [now apply Hadj|]. exists (e0, e1).
    split; [now apply (HZ q Hq)|]. auto.
Qed.
Lemma pair_owned r l0 l1 d0 d1 : r < P -> loc true r = Some (l0, l1) -> d0 / ly_map_bs L < im_hi (maps0 r) - im_lo (maps0 r) ->
  (In (d0, d1) (combine l0 l1) <-> exists q e0 e1, q < P /\ on q e0 e1 /\
    same_dof (ly_map_bs L) (maps0 q) e0 (maps0 r) d0 /\ same_dof mb1 (maps1 q) e1 (maps1 r) d1).
Proof.
  intros Hr E Hd. destruct (pair_remote r Hr) as (U & E' & _ & H). rewrite E in E'. injection E' as -> ->.
  destruct (pk_bs _ _ _ _ _ _ _ _ _ _ (Hp r Hr)) as (_ & _ & Hmb0 & Hmb1).
  replace (combine (map fst U) (map snd U)) with U.
  2:{ clear. induction U as [|(a, b) U IH]; [reflexivity|]. cbn [map combine fst snd]. now rewrite <- IH. }
  assert (R : forall e0 e1, on r e0 e1 -> same_dof (ly_map_bs L) (maps0 r) e0 (maps0 r) e0 /\ same_dof mb1 (maps1 r) e1 (maps1 r) e1).
  { intros e0 e1 O. destruct (lies_matched L bs1 rows0 rows1 ce entities r e0 e1 O) as (c & p & M).
    destruct (pk_dofs _ _ _ _ _ _ _ _ _ _ (Hp r Hr) _ _ _ _ M) as (A & B). split; now apply same_refl. }
  rewrite H. split.
  - intros [A|(q & e0 & e1 & Hq & _ & B & C)]; [|exists q, e0, e1; auto]. exists r, d0, d1. split; [exact Hr|]. split; [exact A|]. now apply R.
  - intros (q & e0 & e1 & Hq & O & S0 & S1).
    destruct (owned_adjacent P maps0 Hmaps0 _ r q e0 d0 Hr Hq Hd S0) as [->|K]; [|right; exists q, e0, e1; auto].
    left. destruct (R e0 e1 O) as (R0 & R1).
    now rewrite (same_inj P maps0 Hmaps0 _ r _ _ _ _ Hr Hmb0 S0 R0), (same_inj P maps1 Hmaps1 _ r _ _ _ _ Hr Hmb1 S1 R1).
Qed.
End World.
