(** The general case of cells made of corners of the cuboids of a grid. *)
From Coq Require Import Reals Lra.
From Verif Require Import Base BaseProofs GenerationSpec GridTiling.
Open Scope nat_scope.

Lemma perm_csum (f : nat -> nat) c c' : Permutation c c' -> lsum (map f c) = lsum (map f c').
Proof. induction 1; cbn [map]; rewrite ?lsum_cons; [reflexivity|lia|lia|congruence]. Qed.

Section Grid.
Variable n : place.
Variable enc : place -> nat.
Variable dec : nat -> place.
Variable N : nat.
Variable bases : list place.
Variable Ds : list (list place).
Variable m : nat.
Variable W : list R -> Prop.
Variable Phi : R -> R -> R -> R -> Prop.
Hypothesis enc_ok : forall a, ple a n -> enc a < N /\ dec (enc a) = a.
Hypothesis dec_ok : forall v, v < N -> ple (dec v) n /\ enc (dec v) = v.
Hypothesis bases_in : forall b, In b bases <-> forall j, co j b < max 1 (co j n).
Hypothesis bases_nd : NoDup bases.
Hypothesis HW : forall l, W l -> length l = m /\ (forall a, In a l -> (0 <= a)%R) /\ rsum l = 1%R.
Hypothesis D_corner : forall D d j, In D Ds -> In d D -> co j d <= min 1 (co j n).
Hypothesis D_nd : forall D, In D Ds -> NoDup D /\ length D = m.
Hypothesis D_low : forall D j, In D Ds -> csum j D < m.
Hypothesis D_once : ForallOrdPairs (fun D D' => exists j, csum j D <> csum j D') Ds.
Hypothesis D_used : forall d, (forall j, co j d <= min 1 (co j n)) -> exists D, In D Ds /\ In d D.
Hypothesis Phi_fun : forall d0 d1 d2 r s, Phi d0 d1 d2 r -> Phi d0 d1 d2 s -> r = s.
Hypothesis Phi_out : forall d0 d1 d2 d, In d [d0; d1; d2] -> (d <= -1 \/ 1 <= d)%R -> Phi d0 d1 d2 0%R.
Hypothesis Phi_in : forall D l w, In D Ds -> W l -> (forall j, co j w <= 1) ->
  Phi (comb (fun d => INR (co 0 d)) D l - INR (co 0 w))%R
      (comb (fun d => INR (co 1 d)) D l - INR (co 1 w))%R
      (comb (fun d => INR (co 2 d)) D l - INR (co 2 w))%R (comb (fun d => if peqb d w then 1%R else 0%R) D l).
Hypothesis D_cover : forall t, (forall j, (0 <= t j <= INR (min 1 (co j n)))%R) ->
  exists D l, In D Ds /\ W l /\ forall j, comb (fun d => INR (co j d)) D l = t j.

Definition cell_of (b : place) (D : list place) : list nat := map (fun d => enc (padd b d)) D.
Definition grid_cells : list (list nat) := concat (map (fun b => map (cell_of b) Ds) bases).
Definition gpos (j v : nat) : R := INR (co j (dec v)).

Lemma in_cells c : In c grid_cells <-> exists b D, In b bases /\ In D Ds /\ c = cell_of b D.
Proof.
  unfold grid_cells. rewrite in_concat. split.
  - intros (t & Ht & Hc). apply in_map_iff in Ht as (b & <- & Hb). apply in_map_iff in Hc as (D & <- & HD). exists b, D. auto.
  - intros (b & D & Hb & HD & ->). exists (map (cell_of b) Ds). split; [apply (in_map (fun b => map (cell_of b) Ds)), Hb|]. apply in_map, HD.
Qed.

Lemma corner_in b D d : In b bases -> In D Ds -> In d D -> ple (padd b d) n.
Proof.
  intros Hb HD Hd j. rewrite co_add. pose proof (proj1 (bases_in b) Hb j). pose proof (D_corner D d j HD Hd). lia.
Qed.

Lemma pos_corner b D d j : In b bases -> In D Ds -> In d D -> gpos j (enc (padd b d)) = (INR (co j b) + INR (co j d))%R.
Proof.
  intros Hb HD Hd. unfold gpos. destruct (enc_ok _ (corner_in b D d Hb HD Hd)) as (_ & ->). rewrite co_add, plus_INR. reflexivity.
Qed.

Lemma cell_comb b D l j : In b bases -> In D Ds -> W l ->
  comb (gpos j) (cell_of b D) l = (INR (co j b) + comb (fun d => INR (co j d)) D l)%R.
Proof.
  intros Hb HD Hl. destruct (HW l Hl) as (El & _ & Es). destruct (D_nd D HD) as (_ & Em).
  unfold cell_of. rewrite comb_map.
  rewrite (comb_ext _ (fun d => INR (co j b) + INR (co j d) * 1)%R).
  - rewrite (comb_affine (fun d => INR (co j d))) by congruence. rewrite Es. lra.
  - intros d Hd. rewrite (pos_corner b D d j Hb HD Hd). lra.
Qed.

Lemma local_range_01 D l j : In D Ds -> W l -> (0 <= comb (fun d => INR (co j d)) D l <= 1)%R.
Proof.
  intros HD Hl. destruct (HW l Hl) as (El & Hp & Es). destruct (D_nd D HD) as (_ & Em).
  pose proof (comb_bounds (fun d => INR (co j d)) D l 0 1 ltac:(congruence) Hp) as H. rewrite Es in H.
  assert (B : forall a, In a D -> (0 <= INR (co j a) <= 1)%R).
  { intros a Ha. split; [apply pos_INR|]. change 1%R with (INR 1). apply le_INR. pose proof (D_corner D a j HD Ha). lia. }
  specialize (H B). lra.
Qed.

(** The weight of a vertex is given by its place and the point. *)
Lemma weight_phi b D l w : In b bases -> In D Ds -> W l -> ple w n ->
  let g j := comb (gpos j) (cell_of b D) l in
  Phi (g 0%nat - INR (co 0 w))%R (g 1%nat - INR (co 1 w))%R (g 2%nat - INR (co 2 w))%R (weight (enc w) (cell_of b D) l).
Proof.
  intros Hb HD Hl Hw g. unfold g. rewrite !(cell_comb b D l) by assumption.
  assert (E : weight (enc w) (cell_of b D) l = comb (fun d => if peqb (padd b d) w then 1%R else 0%R) D l).
  { unfold weight, cell_of. rewrite comb_map. apply comb_ext. intros d Hd.
    destruct (peqb (padd b d) w) eqn:Q.
    - apply peqb_spec in Q. rewrite Q, Nat.eqb_refl. reflexivity.
    - destruct (Nat.eqb_spec (enc (padd b d)) (enc w)) as [F|F]; [|reflexivity].
      destruct (enc_ok _ (corner_in b D d Hb HD Hd)) as (_ & F1). destruct (enc_ok w Hw) as (_ & F2).
      assert (G : padd b d = w) by congruence. apply peqb_spec in G. congruence. }
  rewrite E. clear E.
  assert (C : (exists j, j < 3 /\ (co j w < co j b \/ co j b + 1 < co j w)) \/
              (forall j, co j b <= co j w <= co j b + 1)).
  { assert (Dj : forall j, (co j w < co j b \/ co j b + 1 < co j w) \/ co j b <= co j w <= co j b + 1) by (intro j; lia).
    destruct (Dj 0) as [F|F0]; [left; exists 0; split; [lia|exact F]|].
    destruct (Dj 1) as [F|F1]; [left; exists 1; split; [lia|exact F]|].
    destruct (Dj 2) as [F|F2]; [left; exists 2; split; [lia|exact F]|].
    right. intros [|[|[|j]]]; [exact F0|exact F1|exact F2|cbn; lia]. }
  destruct C as [(j & Hj & Hout)|Hin].
  - rewrite (comb_zero (fun d => if peqb (padd b d) w then 1%R else 0%R)).
    + apply (Phi_out _ _ _ (INR (co j b) + comb (fun d => INR (co j d)) D l - INR (co j w))%R).
      * destruct j as [|[|[|j]]]; [left; reflexivity|right; left; reflexivity|right; right; left; reflexivity|lia].
      * pose proof (local_range_01 D l j HD Hl) as (H1 & H2). destruct Hout as [H|H]; apply le_INR in H.
        -- rewrite S_INR in H. right. lra.
        -- rewrite S_INR, plus_INR in H. cbn in H. left. lra.
    + intros d Hd. destruct (peqb (padd b d) w) eqn:Q; [|reflexivity]. apply peqb_spec in Q. exfalso.
      pose proof (f_equal (co j) Q) as F. rewrite co_add in F. pose proof (D_corner D d j HD Hd). lia.
  - set (o := (co 0 w - co 0 b, co 1 w - co 1 b, co 2 w - co 2 b)).
    assert (Ho : forall j, co j w = co j b + co j o).
    { intros [|[|[|j]]]; [pose proof (Hin 0)|pose proof (Hin 1)|pose proof (Hin 2)|]; cbn in *; lia. }
    assert (P : forall d, peqb (padd b d) w = peqb d o).
    { intro d. destruct (peqb d o) eqn:Q.
      - apply peqb_spec in Q. subst d. apply peqb_spec. apply place_ext. intro j. rewrite co_add, Ho. reflexivity.
      - destruct (peqb (padd b d) w) eqn:Q'; [|reflexivity]. apply peqb_spec in Q'.
        assert (F : d = o). { apply place_ext. intro j. pose proof (f_equal (co j) Q') as F. rewrite co_add, Ho in F. lia. }
        apply peqb_spec in F. congruence. }
    rewrite (comb_ext (fun d => if peqb (padd b d) w then 1%R else 0%R) (fun d => if peqb d o then 1%R else 0%R));
      [|intros d _; rewrite P; reflexivity].
    rewrite !Ho, !plus_INR.
    replace (INR (co 0 b) + comb (fun d => INR (co 0 d)) D l - (INR (co 0 b) + INR (co 0 o)))%R
      with (comb (fun d => INR (co 0 d)) D l - INR (co 0 o))%R by lra.
    replace (INR (co 1 b) + comb (fun d => INR (co 1 d)) D l - (INR (co 1 b) + INR (co 1 o)))%R
      with (comb (fun d => INR (co 1 d)) D l - INR (co 1 o))%R by lra.
    replace (INR (co 2 b) + comb (fun d => INR (co 2 d)) D l - (INR (co 2 b) + INR (co 2 o)))%R
      with (comb (fun d => INR (co 2 d)) D l - INR (co 2 o))%R by lra.
    apply Phi_in; [exact HD|exact Hl|]. intro j. pose proof (Hin j). pose proof (Ho j). lia.
Qed.

Lemma cell_sum b D j : In b bases -> In D Ds ->
  lsum (map (fun v => co j (dec v)) (cell_of b D)) = m * co j b + csum j D.
Proof.
  intros Hb HD. destruct (D_nd D HD) as (_ & Em). rewrite <- Em. unfold cell_of, csum. rewrite map_map.
  assert (A : forall d, In d D -> ple (padd b d) n) by (intros d; apply corner_in; assumption).
  clear Em. clear HD. induction D as [|d t IH]; [cbn; lia|]. cbn [map]. rewrite !lsum_cons, IH.
  - destruct (enc_ok _ (A d (or_introl eq_refl))) as (_ & ->). rewrite co_add. cbn [length]. lia.
  - intros x Hx. apply A. right. exact Hx.
Qed.

Lemma once_ok : ForallOrdPairs (fun c c' => ~ Permutation c c') grid_cells.
Proof.
  unfold grid_cells. apply FOP_concat; [exact bases_nd| |].
  - intros b Hb. apply FOP_map. apply (FOP_impl (fun D D' => exists j, csum j D <> csum j D')); [|exact D_once].
    intros D D' HD HD' (j & Hj) Hp. apply Hj. apply (perm_csum (fun v => co j (dec v))) in Hp.
    rewrite !(cell_sum b) in Hp by assumption. lia.
  - intros b b' c c' Hb Hb' Hne Hc Hc' Hp. apply in_map_iff in Hc as (D & <- & HD). apply in_map_iff in Hc' as (D' & <- & HD').
    apply Hne. apply place_ext. intro j. apply (perm_csum (fun v => co j (dec v))) in Hp. rewrite !cell_sum in Hp by assumption.
    pose proof (D_low D j HD) as L. pose proof (D_low D' j HD') as L'.
    destruct (Nat.lt_total (co j b) (co j b')) as [F|[F|F]]; [exfalso; nia|exact F|exfalso; nia].
Qed.

Lemma grid_tiling : gtiling W N gpos (fun j => INR (co j n)) grid_cells.
Proof.
  constructor.
  - intros c Hc. apply in_cells in Hc as (b & D & Hb & HD & ->). split.
    + unfold cell_of. destruct (D_nd D HD) as (Hnd & _).
      assert (A : forall d, In d D -> ple (padd b d) n) by (intros d; apply corner_in; assumption).
      clear HD. induction Hnd as [|d t Hd Ht IH]; [constructor|]. cbn [map]. constructor.
      * intro Hi. apply in_map_iff in Hi as (d' & E & Hd'). apply Hd.
        destruct (enc_ok _ (A d (or_introl eq_refl))) as (_ & E1). destruct (enc_ok _ (A d' (or_intror Hd'))) as (_ & E2).
        assert (F : padd b d' = padd b d) by congruence.
        replace d with d'; [exact Hd'|]. apply place_ext. intro j. pose proof (f_equal (co j) F) as G. rewrite !co_add in G. lia.
      * apply IH. intros x Hx. apply A. right. exact Hx.
    + intros v Hv. apply in_map_iff in Hv as (d & <- & Hd). apply enc_ok. apply (corner_in b D); assumption.
  - intros v w Hv Hw E. destruct (dec_ok v Hv) as (_ & <-). destruct (dec_ok w Hw) as (_ & <-). f_equal.
    apply place_ext. intro j. apply INR_eq. exact (E j).
  - intros v Hv. destruct (dec_ok v Hv) as (Hp & Ev).
    set (b := (min (co 0 (dec v)) (max 1 (co 0 n) - 1), min (co 1 (dec v)) (max 1 (co 1 n) - 1), min (co 2 (dec v)) (max 1 (co 2 n) - 1))).
    set (d := (co 0 (dec v) - co 0 b, co 1 (dec v) - co 1 b, co 2 (dec v) - co 2 b)).
    assert (Hb : forall j, co j b <= co j (dec v) /\ co j b < max 1 (co j n) /\ co j (dec v) - co j b <= min 1 (co j n)).
    { intros [|[|[|j]]]; [pose proof (Hp 0)|pose proof (Hp 1)|pose proof (Hp 2)|]; cbn [co b fst snd] in *; lia. }
    assert (Ed : forall j, co j d = co j (dec v) - co j b) by (intros [|[|[|j]]]; reflexivity).
    destruct (D_used d) as (D & HD & Hd); [intro j; rewrite Ed; apply Hb|].
    exists (cell_of b D). split.
    + apply in_cells. exists b, D. split; [|split; [exact HD|reflexivity]]. apply bases_in. intro j. apply Hb.
    + apply in_map_iff. exists d. split; [|exact Hd]. transitivity (enc (dec v)); [|exact Ev]. f_equal. apply place_ext. intro j.
      rewrite co_add, Ed. pose proof (Hb j). lia.
  - exact once_ok.
  - intros v j Hv. unfold gpos. split; [apply pos_INR|]. apply le_INR. apply (dec_ok v Hv).
  - intros g Hg.
    assert (B : forall j, exists b, b < max 1 (co j n) /\ (0 <= g j - INR b)%R /\ (g j - INR b <= INR (min 1 (co j n)))%R).
    { intro j. apply unit_square, Hg. }
    destruct (B 0) as (b0 & B01 & B02 & B03). destruct (B 1) as (b1 & B11 & B12 & B13). destruct (B 2) as (b2 & B21 & B22 & B23).
    set (b := (b0, b1, b2)).
    assert (Hb : forall j, co j b < max 1 (co j n) /\ (0 <= g j - INR (co j b) <= INR (min 1 (co j n)))%R).
    { intros [|[|[|j]]]; [split; [exact B01|split; assumption]|split; [exact B11|split; assumption]|split; [exact B21|split; assumption]|].
      pose proof (Hg (S (S (S j)))) as G. cbn in *. split; [lia|]. lra. }
    destruct (D_cover (fun j => g j - INR (co j b))%R) as (D & l & HD & Hl & Hc); [intro j; apply Hb|].
    assert (Hbb : In b bases) by (apply bases_in; intro j; apply Hb).
    exists (cell_of b D), l. split; [apply in_cells; exists b, D; auto|]. split; [exact Hl|]. split.
    + unfold cell_of. rewrite map_length. destruct (D_nd D HD) as (_ & ->). destruct (HW l Hl) as (-> & _). reflexivity.
    + intro j. rewrite (cell_comb b D l j Hbb HD Hl), Hc. lra.
  - intros c c' l l' Hc Hc' Hl _ Hl' _ E v Hv. destruct (dec_ok v Hv) as (Hp & Ev). rewrite <- Ev.
    apply in_cells in Hc as (b & D & Hb & HD & ->). apply in_cells in Hc' as (b' & D' & Hb' & HD' & ->).
    pose proof (weight_phi b D l (dec v) Hb HD Hl Hp) as P. pose proof (weight_phi b' D' l' (dec v) Hb' HD' Hl' Hp) as P'.
    cbv beta zeta in P, P'. rewrite <- (E 0), <- (E 1), <- (E 2) in P'. exact (Phi_fun _ _ _ _ _ P P').
Qed.
End Grid.
