(** Proofs for Cells: the orderings are permutations, transpose inverts them. *)
From Coq Require Import Permutation.
From Verif Require Import Base BaseProofs Algo AlgoProofs CellTypes Cells CellsSpec CellsPop CellsTri CellsTet CellsBlocks PlazaBisect PlazaOrder.
Open Scope Z_scope.

Lemma perm_range l n : isort Z.leb l = range n -> Permutation l (range n).
Proof. intros E. rewrite <- E. apply isort_perm. Qed.

(** * Degrees *)
Lemma quadrilateral_degree d : 0 <= d -> cell_degree Quadrilateral ((d + 1) * (d + 1)) = Some d.
Proof.
  intros Hd. unfold cell_degree. rewrite Z.sqrt_square by lia. rewrite Z.eqb_refl. f_equal. lia.
Qed.
Lemma filter_all {A} (f : A -> bool) l : (forall x, In x l -> f x = true) -> filter f l = l.
Proof. induction l as [|x l IH]; intros H; [reflexivity|]. cbn [filter]. rewrite H by now left. f_equal. apply IH. intros; apply H; now right. Qed.
Lemma filter_none {A} (f : A -> bool) l : (forall x, In x l -> f x = false) -> filter f l = [].
Proof. induction l as [|x l IH]; intros H; [reflexivity|]. cbn [filter]. rewrite H by now left. apply IH. intros; apply H; now right. Qed.
Lemma cube_root_ok g : 0 < g -> cube_root (g * g * g) = g.
Proof.
  intros Hg. unfold cube_root. assert (Hb : g <= g * g * g) by nia.
  replace (Z.to_nat (g * g * g)) with (Z.to_nat g + (Z.to_nat (g * g * g) - Z.to_nat g))%nat by lia.
  rewrite seq_app, filter_app, filter_all, filter_none.
  - rewrite app_nil_r, seq_length. lia.
  - intros x Hx. apply in_seq in Hx. apply Z.leb_gt. replace (Z.of_nat x ^ 3) with (Z.of_nat x * Z.of_nat x * Z.of_nat x) by ring.
    assert (g < Z.of_nat x) by lia. assert (g * g < Z.of_nat x * Z.of_nat x) by nia. nia.
  - intros x Hx. apply in_seq in Hx. apply Z.leb_le. replace (Z.of_nat x ^ 3) with (Z.of_nat x * Z.of_nat x * Z.of_nat x) by ring.
    assert (Z.of_nat x <= g) by lia. assert (0 <= Z.of_nat x) by lia.
    assert (Z.of_nat x * Z.of_nat x <= g * g) by nia. nia.
Qed.
Lemma hexahedron_degree d : 0 <= d -> cell_degree Hexahedron ((d + 1) * (d + 1) * (d + 1)) = Some d.
Proof. intros Hd. unfold cell_degree. rewrite cube_root_ok by lia. rewrite Z.eqb_refl. f_equal. lia. Qed.

(** * The orderings *)
Lemma triangle_ok d n : 1 <= d -> 2 * n = (d + 1) * (d + 2) -> n <= 65536 ->
  exists m, vtk_triangle n = Some m /\ Permutation m (ival 0 n).
Proof.
  intros Hd Hn Hb. unfold vtk_triangle. rewrite (triangle_degree n d) by lia. cbn [obind].
  assert (Hlow : 3 * d <= n) by nia.
  rewrite (w16_block (3 + 2 * (d - 1)) (d - 1)) by lia.
  rewrite (w16_block 3 (d - 1)) by lia.
  rewrite (w16_ext (fun k => 2 * d - k)) by lia.
  set (mp := [0; 1; 2] ++ _).
  assert (P : Permutation mp (ival 0 (3 * d))).
  { replace (3 * d) with (3 + ((d - 1) + ((d - 1) + (d - 1)))) by ring. rewrite !ival_app by lia.
    unfold mp. change (ival 0 3) with [0; 1; 2]. apply Permutation_app_head.
    rewrite down_block.
    replace (2 * d - (d - 1) + 1) with (0 + 3 + (d - 1)) by ring.
    replace (3 + 2 * (d - 1)) with (0 + 3 + (d - 1) + (d - 1)) by ring.
    change (ival 3 (d - 1)) with (ival (0 + 3) (d - 1)).
    etransitivity; [apply Permutation_app_comm|]. rewrite <- app_assoc. reflexivity. }
  clearbody mp. destruct (Z.ltb_spec d 3) as [H3|H3].
  - exists mp. split; [reflexivity|]. replace n with (3 * d); [exact P|].
    assert (D : d = 1 \/ d = 2) by lia. destruct D as [D|D]; rewrite D in *; lia.
  - assert (Hl : zlen mp = 3 * d) by (rewrite P; apply ival_len; lia).
    rewrite Hl, iota_ival by lia.
    destruct (triangle_remainders_ok (ival (3 * d) (n - 3 * d)) (d - 3)) as (m & E & Pm).
    + lia.
    + rewrite ival_len by lia. lia.
    + rewrite E. cbn [obind]. exists (mp ++ m). split; [reflexivity|].
      rewrite P, Pm. replace n with (3 * d + (n - 3 * d)) at 2 by ring. rewrite ival_app by lia. reflexivity.
Qed.

Lemma face_dofs_ok d base nf face : 3 <= d -> nf = (d - 1) * (d - 2) / 2 -> 0 <= base + nf * face -> base + nf * face + nf <= 65536 ->
  Permutation (tet_face_dofs d base nf face) (ival (base + nf * face) nf).
Proof.
  intros Hd Hnf Hlo Hhi. unfold tet_face_dofs.
  assert (Hoff : off (d - 2) (d - 2) = nf).
  { pose proof (off_twice (d - 2) (d - 2)). pose proof (half (d - 1) (d - 2) ltac:(lia)). lia. }
  set (l := if face =? 2 then _ else _).
  assert (P : Permutation l (ival 0 nf)).
  { unfold l. destruct (face =? 2); [now rewrite ival_0|]. rewrite <- Hoff. destruct (face =? 0).
    - replace (d - 3) with (d - 2 - 1) by ring. apply antidiagonals. lia.
    - apply columns. lia. }
  clearbody l. transitivity (map (fun x => w16 (base + nf * face + x)) (ival 0 nf)).
  { now apply Permutation_map. }
  rewrite ival_0, w16_block by lia. reflexivity.
Qed.

Lemma concat_perm {A B} (f : A -> option (list B)) (g : A -> list B) l :
  (forall x, In x l -> exists r, f x = Some r /\ Permutation r (g x)) ->
  exists rs, omap f l = Some rs /\ Permutation (concat rs) (flat_map g l).
Proof.
  induction l as [|x l IH]; intros H.
  - exists []. split; reflexivity.
  - destruct (H x (or_introl eq_refl)) as (r & E & P).
    destruct IH as (rs & Es & Ps); [intros y Hy; apply H; now right|].
    exists (r :: rs). cbn [omap]. rewrite E. cbn [obind]. rewrite Es. cbn [obind concat flat_map].
    split; [reflexivity|]. now apply Permutation_app.
Qed.

Lemma tetrahedron_ok d n : 1 <= d -> 6 * n = (d + 1) * (d + 2) * (d + 3) -> n <= 65536 ->
  exists m, vtk_tetrahedron n = Some m /\ Permutation m (ival 0 n).
Proof.
  intros Hd Hn Hb. unfold vtk_tetrahedron. rewrite (tetrahedron_degree n d) by lia. cbn [obind].
  destruct (Z.ltb_spec d 2) as [H2|H2].
  { exists [0; 1; 2; 3]. split; [reflexivity|]. replace d with 1 in Hn by lia. replace n with 4 by lia. reflexivity. }
  set (nf := (d - 1) * (d - 2) / 2). pose proof (half (d - 1) (d - 2) ltac:(lia)) as Hnf. fold nf in Hnf.
  assert (Hnf0 : 0 <= nf) by nia.
  set (nv := (d - 1) * (d - 2) * (d - 3) / 6).
  assert (Hnv : n = 4 + 6 * (d - 1) + 4 * nf + nv /\ 6 * nv = (d - 1) * (d - 2) * (d - 3)).
  { assert (E : (d - 1) * (d - 2) * (d - 3) = (n - (4 + 6 * (d - 1) + 4 * nf)) * 6) by lia.
    unfold nv. rewrite E, Z.div_mul by lia. lia. }
  destruct Hnv as [En Hnv].
  assert (Hnv0 : 0 <= nv).
  { destruct (Z.eq_dec d 2) as [D|D]; [rewrite D in Hnv; lia|].
    assert (0 <= (d - 1) * (d - 2) * (d - 3)) by (repeat apply Z.mul_nonneg_nonneg; lia). lia. }
  clearbody nv. set (edges := flat_map _ [5; 2; 4; 3; 1; 0]).
  assert (Pe : Permutation edges (ival 4 (6 * (d - 1)))).
  { unfold edges. etransitivity.
    - apply flat_map_perm with (g := fun e => ival (4 + (d - 1) * e) (d - 1)). intros e He.
      assert (He' : 0 <= e <= 5) by (cbn in He; lia).
      destruct (Z.eqb_spec e 4) as [E4|N4].
      + rewrite E4. rewrite (w16_ext (fun i => 4 + (d - 1) * (4 + 1) - 1 - i)) by lia. rewrite down_block.
        replace (4 + (d - 1) * (4 + 1) - 1 - (d - 1) + 1) with (4 + (d - 1) * 4) by ring. reflexivity.
      + rewrite w16_block by nia. reflexivity.
    - rewrite (blocks _ 6) by (lia || (apply perm_range; reflexivity)).
      change (Z.of_nat 6) with 6. rewrite (Z.mul_comm (d - 1) 6). reflexivity. }
  clearbody edges.
  assert (Pv : Permutation ([0; 1; 2; 3] ++ edges) (ival 0 (4 + 6 * (d - 1)))).
  { rewrite ival_app by lia. change (ival 0 4) with [0; 1; 2; 3]. now rewrite Pe. }
  destruct (Z.ltb_spec d 3) as [H3|H3].
  { exists ([0; 1; 2; 3] ++ edges). split; [reflexivity|]. rewrite Pv. replace d with 2 in * by lia.
    replace n with (4 + 6 * (2 - 1)) by lia. reflexivity. }
  destruct (concat_perm (fun face => vtk_triangle_remainders (tet_face_dofs d (4 + 6 * (d - 1)) nf face))
     (fun face => ival (4 + 6 * (d - 1) + nf * face) nf) [2; 0; 1; 3]) as (fs & Ef & Pf).
  { intros face Hf. assert (Hf' : 0 <= face <= 3) by (cbn in Hf; lia).
    pose proof (face_dofs_ok d (4 + 6 * (d - 1)) nf face H3 eq_refl ltac:(nia) ltac:(nia)) as P.
    destruct (triangle_remainders_ok (tet_face_dofs d (4 + 6 * (d - 1)) nf face) (d - 3)) as (m & E & Pm);
      [lia|rewrite P, ival_len by lia; lia|].
    exists m. split; [exact E|]. now rewrite Pm. }
  rewrite Ef. cbn [obind].
  rewrite (blocks _ 4) in Pf by (lia || (apply perm_range; reflexivity)). change (Z.of_nat 4) with 4 in Pf.
  assert (Pm : Permutation ([0; 1; 2; 3] ++ edges ++ concat fs) (ival 0 (4 + 6 * (d - 1) + nf * 4))).
  { rewrite app_assoc, ival_app by lia. now rewrite Pv, Pf. }
  destruct (Z.ltb_spec d 4) as [H4|H4].
  { exists ([0; 1; 2; 3] ++ edges ++ concat fs). split; [reflexivity|]. rewrite Pm. replace d with 3 in * by lia.
    replace n with (4 + 6 * (3 - 1) + nf * 4) by lia. reflexivity. }
  rewrite iota_ival by lia.
  destruct (tetrahedron_remainders_ok (ival (4 + 6 * (d - 1) + 4 * nf) nv) (d - 4)) as (r & Er & Pr);
    [lia|rewrite ival_len by lia; lia|].
  rewrite Er. cbn [obind]. exists (([0; 1; 2; 3] ++ edges ++ concat fs) ++ r). split; [reflexivity|].
  rewrite Pr, Pm, En. rewrite (Z.mul_comm nf 4). rewrite (ival_app 0 _ nv) by lia. reflexivity.
Qed.

Lemma quadrilateral_ok d : 1 <= d -> (d + 1) * (d + 1) <= 65536 ->
  exists m, vtk_quadrilateral ((d + 1) * (d + 1)) = Some m /\ Permutation m (ival 0 ((d + 1) * (d + 1))).
Proof.
  intros Hd Hb. unfold vtk_quadrilateral. rewrite quadrilateral_degree by lia. cbn [obind].
  eexists. split; [reflexivity|]. set (e := d - 1). assert (He : 0 <= e) by (unfold e; lia).
  assert (E : (d + 1) * (d + 1) = 4 + (e + (e + (e + (e + e * e))))) by (unfold e; ring). rewrite E in *. clear E.
  assert (0 <= e * e) by nia.
  rewrite !w16_block by nia. rewrite !ival_app by nia.
  apply Permutation_app; [apply (perm_range _ 4); reflexivity|].
  replace (4 + 2 * e) with (0 + 4 + e + e) by ring. replace (4 + 3 * e) with (0 + 4 + e + e + e) by ring.
  replace (4 + e * 4) with (0 + 4 + e + e + e + e) by ring. replace (4 + e) with (0 + 4 + e) by ring.
  replace (ival 4 e) with (ival (0 + 4) e) by reflexivity.
  apply Permutation_app_head. rewrite !app_assoc. apply Permutation_app_tail.
  rewrite <- app_assoc. rewrite Permutation_app_comm. rewrite <- app_assoc. apply Permutation_app_comm || reflexivity.
Qed.

Lemma hexahedron_ok d : 1 <= d -> (d + 1) * (d + 1) * (d + 1) <= 65536 ->
  exists m, vtk_hexahedron ((d + 1) * (d + 1) * (d + 1)) = Some m
    /\ Permutation m (ival 0 ((d + 1) * (d + 1) * (d + 1))).
Proof.
  intros Hd Hb. unfold vtk_hexahedron.
  destruct (Z.eqb_spec ((d + 1) * (d + 1) * (d + 1)) 20) as [E|N].
  { exfalso. destruct (Z.eq_dec d 1) as [D|D]; [rewrite D in E; discriminate|].
    assert (9 <= (d + 1) * (d + 1)) by nia. nia. }
  rewrite hexahedron_degree by lia. cbn [obind].
  assert (d < 65536) by nia. rewrite w16_id by lia.
  eexists. split; [reflexivity|]. set (e := d - 1). assert (He : 0 <= e) by (unfold e; lia).
  assert (E : (d + 1) * (d + 1) * (d + 1) = 8 + (e * 12 + (e * e * 6 + e * e * e))) by (unfold e; ring).
  rewrite E in *. clear E. assert (0 <= e * e) by nia. assert (0 <= e * e * e) by nia.
  rewrite !ival_app by nia. change (0 + 8) with 8.
  apply Permutation_app; [apply (perm_range _ 8); reflexivity|]. apply Permutation_app; [|apply Permutation_app].
  - change (e * 12) with (e * Z.of_nat 12). rewrite <- (blocks [0; 3; 5; 1; 8; 10; 11; 9; 2; 4; 7; 6]) by (lia || (apply perm_range; reflexivity)).
    erewrite flat_map_eq; [reflexivity|]. intros x Hx. assert (0 <= x <= 11) by (cbn in Hx; lia). apply w16_block; nia.
  - change (e * e * 6) with (e * e * Z.of_nat 6). rewrite <- (blocks [2; 3; 1; 4; 0; 5]) by (lia || (apply perm_range; reflexivity)).
    erewrite flat_map_eq; [reflexivity|]. intros x Hx. assert (0 <= x <= 5) by (cbn in Hx; lia).
    cbn beta. rewrite w16_block by nia. now rewrite (Z.mul_comm 12 e).
  - rewrite w16_block by nia. replace (8 + 12 * e + 6 * (e * e)) with (8 + e * 12 + e * e * 6) by ring. reflexivity.
Qed.

Lemma vtk_map_ok t d n : lagrange_nodes t d n -> 1 <= d -> n <= 65536 ->
  exists m, vtk_map t n = Some m /\ Permutation m (ival 0 n).
Proof.
  intros H Hd Hb. destruct H as [d|d|d n H|d n H|d|d| | |n H| |n H]; cbn [vtk_map].
  - exists [0]. split; reflexivity.
  - exists (iota 0 (d + 1)). split; [reflexivity|]. now rewrite iota_ival by lia.
  - now apply (triangle_ok d).
  - now apply (tetrahedron_ok d).
  - now apply quadrilateral_ok.
  - now apply hexahedron_ok.
  - eexists. split; [reflexivity|]. rewrite ival_0. apply perm_range. reflexivity.
  - eexists. split; [reflexivity|]. rewrite ival_0. apply perm_range. reflexivity.
  - destruct H as [E|E]; rewrite E; eexists; (split; [reflexivity|]); rewrite ival_0; apply perm_range; reflexivity.
  - eexists. split; [reflexivity|]. rewrite ival_0. apply perm_range. reflexivity.
  - destruct H as [E|E]; rewrite E; eexists; (split; [reflexivity|]); rewrite ival_0; apply perm_range; reflexivity.
Qed.
