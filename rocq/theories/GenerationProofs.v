(** Proofs about the generation of boxes, quadrilaterals and intervals. *)
From Coq Require Import Reals Lra.
From Verif Require ScattererProofs.
From Verif Require Import Base BaseProofs Ranges RangesProofs Generation GenerationSpec GridTiling GridCells GridShapes.
Open Scope nat_scope.

Lemma divmod_add m q r : r < m -> (q * m + r) / m = q /\ (q * m + r) mod m = r.
Proof.
  intro H. split.
  - rewrite Nat.div_add_l by lia. rewrite Nat.div_small by lia. lia.
  - rewrite Nat.add_comm, Nat.mod_add by lia. apply Nat.mod_small, H.
Qed.
Lemma divmod_split m v k : 0 < m -> v < k * m -> v / m < k /\ v mod m < m /\ v = v / m * m + v mod m.
Proof.
  intros Hm Hv. split; [apply Nat.div_lt_upper_bound; nia|]. split; [apply Nat.mod_upper_bound; lia|].
  rewrite (Nat.div_mod v m) at 1 by lia. lia.
Qed.

(** ** Division over processes *)
Lemma ranges_concat (N P : nat) : 0 < P -> concat (map (fun r => my_range r N P) (seq 0 P)) = seq 0 N.
Proof.
  intro HP.
  assert (A : forall k, k <= P -> concat (map (fun r => my_range r N P) (seq 0 k)) =
    seq 0 (match k with 0 => 0 | S k' => Z.to_nat (snd (local_range (Z.of_nat k') (Z.of_nat N) (Z.of_nat P))) end)).
  { induction k as [|k IH]; intro Hk; [reflexivity|]. rewrite seq_S, map_app, concat_app, IH by lia. cbn [map concat Nat.add]. rewrite app_nil_r.
    unfold my_range. destruct (local_range (Z.of_nat k) (Z.of_nat N) (Z.of_nat P)) as (a, b) eqn:E. cbn [snd].
    assert (Ea : match k with 0 => 0 | S k' => Z.to_nat (snd (local_range (Z.of_nat k') (Z.of_nat N) (Z.of_nat P))) end = Z.to_nat a).
    { destruct k as [|k].
      - pose proof (local_range_first (Z.of_nat N) (Z.of_nat P) ltac:(lia) ltac:(lia)) as F. change (Z.of_nat 0) with 0%Z in E.
        rewrite E in F. cbn in F. lia.
      - rewrite (local_range_consecutive (Z.of_nat k)) by lia. replace (Z.of_nat k + 1)%Z with (Z.of_nat (S k)) by lia. rewrite E. reflexivity. }
    rewrite Ea. pose proof (local_range_length (Z.of_nat k) (Z.of_nat N) (Z.of_nat P) ltac:(lia) ltac:(lia)) as L. rewrite E in L. cbn [fst snd] in L.
    pose proof (Z.div_pos (Z.of_nat N) (Z.of_nat P) ltac:(lia) ltac:(lia)).
    replace (Z.to_nat b) with (Z.to_nat a + (Z.to_nat b - Z.to_nat a)) at 2 by lia. rewrite seq_app. reflexivity. }
  rewrite (A P) by lia. destruct P as [|P]; [lia|]. f_equal.
  pose proof (local_range_last (Z.of_nat N) (Z.of_nat (S P)) ltac:(lia) ltac:(lia)) as F.
  replace (Z.of_nat (S P) - 1)%Z with (Z.of_nat P) in F by lia. rewrite F. lia.
Qed.

Lemma concat_map_map {A B} (f : A -> B) (g : nat -> list A) l :
  concat (map (fun r => map f (g r)) l) = map f (concat (map g l)).
Proof. rewrite concat_map, map_map. reflexivity. Qed.

Lemma coordinate_map f N j v : v < N -> coordinate (map f (seq 0 N)) j v = nth j (f v) 0%R.
Proof.
  intro Hv. unfold coordinate. rewrite (nth_indep _ [] (f 0)) by (rewrite map_length, seq_length; exact Hv).
  rewrite map_nth, seq_nth by exact Hv. reflexivity.
Qed.

Lemma tiling_ext W X cells lo hi hi' : (forall j, hi j = hi' j) -> tiling W X cells lo hi -> tiling W X cells lo hi'.
Proof.
  intros E [H1 H2 H3 H4 H5 H6]. constructor; try assumption. intro x. rewrite <- H5. unfold inside.
  split; intros H j; specialize (H j); [rewrite E|rewrite <- E]; exact H.
Qed.

(** ** The grid of a box *)
Section Box.
Variables nx ny nz : nat.
Definition enc3 (a : place) : nat := snd a * ((nx + 1) * (ny + 1)) + (snd (fst a) * (nx + 1) + fst (fst a)).
Definition dec3 (v : nat) : place :=
  let p := v mod ((nx + 1) * (ny + 1)) in (p mod (nx + 1), p / (nx + 1), v / ((nx + 1) * (ny + 1))).
Definition base3 (i : nat) : place :=
  let j := i mod (nx * ny) in (j mod nx, j / nx, i / (nx * ny)).
Definition N3 := (nx + 1) * (ny + 1) * (nz + 1).
Definition bases3 := map base3 (seq 0 (nx * ny * nz)).

Lemma enc3_ok a : ple a (nx, ny, nz) -> enc3 a < N3 /\ dec3 (enc3 a) = a.
Proof.
  intro H. apply ple_iff in H as (H0 & H1 & H2). destruct a as [[a b] c]. cbn [fst snd] in *. unfold enc3, N3, dec3. cbn [fst snd].
  assert (L : b * (nx + 1) + a < (nx + 1) * (ny + 1)) by nia. split; [nia|].
  destruct (divmod_add _ c _ L) as (-> & ->). destruct (divmod_add (nx + 1) b a ltac:(lia)) as (-> & ->). reflexivity.
Qed.
Lemma dec3_ok v : v < N3 -> ple (dec3 v) (nx, ny, nz) /\ enc3 (dec3 v) = v.
Proof.
  unfold N3. intro H. destruct (divmod_split ((nx + 1) * (ny + 1)) v (nz + 1) ltac:(nia) ltac:(nia)) as (H1 & H2 & H3).
  destruct (divmod_split (nx + 1) (v mod ((nx + 1) * (ny + 1))) (ny + 1) ltac:(nia) ltac:(nia)) as (H4 & H5 & H6).
  split.
  - apply ple_iff. unfold dec3. cbn [fst snd]. lia.
  - unfold enc3, dec3. cbn [fst snd]. rewrite <- H6. lia.
Qed.

Hypothesis Hx : 1 <= nx.
Hypothesis Hy : 1 <= ny.
Hypothesis Hz : 1 <= nz.
Lemma bases3_in b : In b bases3 <-> forall j, co j b < max 1 (co j (nx, ny, nz)).
Proof.
  unfold bases3. rewrite in_map_iff. split.
  - intros (i & <- & Hi). apply in_seq in Hi.
    destruct (divmod_split (nx * ny) i nz ltac:(nia) ltac:(nia)) as (H1 & H2 & H3).
    destruct (divmod_split nx (i mod (nx * ny)) ny ltac:(nia) ltac:(nia)) as (H4 & H5 & H6).
    intros [|[|[|j]]]; cbn [co base3 fst snd]; lia.
  - intro H. pose proof (H 0) as H0. pose proof (H 1) as H1. pose proof (H 2) as H2. destruct b as [[a b] c]. cbn [co fst snd] in *.
    assert (L : b * nx + a < nx * ny) by nia. exists (c * (nx * ny) + (b * nx + a)). split.
    + unfold base3. destruct (divmod_add _ c _ L) as (-> & ->). destruct (divmod_add nx b a ltac:(lia)) as (-> & ->). reflexivity.
    + apply in_seq. nia.
Qed.
Lemma bases3_nd : NoDup bases3.
Proof.
  unfold bases3. apply ScattererProofs.NoDup_map_inj; [apply seq_NoDup|].
  intros i k Hi Hk E. apply in_seq in Hi. apply in_seq in Hk. unfold base3 in E. injection E as E1 E2 E3.
  destruct (divmod_split (nx * ny) i nz ltac:(nia) ltac:(nia)) as (H1 & H2 & H3).
  destruct (divmod_split nx (i mod (nx * ny)) ny ltac:(nia) ltac:(nia)) as (H4 & H5 & H6).
  destruct (divmod_split (nx * ny) k nz ltac:(nia) ltac:(nia)) as (K1 & K2 & K3).
  destruct (divmod_split nx (k mod (nx * ny)) ny ltac:(nia) ltac:(nia)) as (K4 & K5 & K6).
  rewrite H3, K3, H6, K6, E1, E2, E3. reflexivity.
Qed.

Lemma corner3 Ds : (forall D d, In D Ds -> In d D -> fst (fst d) <= 1 /\ snd (fst d) <= 1 /\ snd d <= 1) ->
  forall D d j, In D Ds -> In d D -> co j d <= min 1 (co j (nx, ny, nz)).
Proof. intros H D d j HD Hd. destruct (H D d HD Hd) as (A & B & C). destruct j as [|[|[|j]]]; cbn [co fst snd]; lia. Qed.

Lemma unit3 t : (forall j, (0 <= t j <= INR (min 1 (co j (nx, ny, nz))))%R) ->
  (forall j, j < 3 -> unit (t j)) /\ (forall j, 3 <= j -> t j = 0%R).
Proof.
  intro H. split.
  - intros j Hj. pose proof (H j) as B. replace (min 1 (co j (nx, ny, nz))) with 1 in B; [exact B|].
    destruct j as [|[|[|j]]]; cbn [co fst snd]; lia.
  - intros j Hj. pose proof (H j) as B. destruct j as [|[|[|j]]]; [lia..|]. cbn in B. lra.
Qed.
Lemma used3 d : (forall j, co j d <= min 1 (co j (nx, ny, nz))) -> In d [q0; q1; q2; q3; q4; q5; q6; q7].
Proof.
  intro H. assert (B : forall j, co j d <= 1) by (intro j; specialize (H j); lia). bits B; cbn; auto 10.
Qed.

Ltac low HD j := unfold csum, tetD, hexD, prismD in *; cases0 HD; destruct j as [|[|[|j]]]; vm_compute; lia.
Ltac nds HD := cases0 HD; (split; [|reflexivity]); repeat (apply NoDup_cons; [cbn; intuition discriminate|]); apply NoDup_nil.

Lemma tet_grid : gtiling (simplex_weights 4) N3 (gpos dec3) (fun j => INR (co j (nx, ny, nz))) (grid_cells enc3 bases3 tetD).
Proof.
  apply (grid_tiling (nx, ny, nz) enc3 dec3 N3 bases3 tetD 4 (simplex_weights 4) (fun d0 d1 d2 r => hat [d0; d1; d2] r)).
  - exact enc3_ok.
  - exact dec3_ok.
  - exact bases3_in.
  - exact bases3_nd.
  - intros l H. exact H.
  - apply corner3. unfold tetD. intros D d HD Hd. cases0 HD; cases0 Hd; cbn; lia.
  - intros D HD. unfold tetD in HD. nds HD.
  - intros D j HD. low HD j.
  - unfold tetD, csum. repeat (constructor; [repeat (apply Forall_cons; [first [exists 0; vm_compute; discriminate|exists 1; vm_compute; discriminate|exists 2; vm_compute; discriminate]|]); apply Forall_nil|]). constructor.
  - intros d Hd. apply used3 in Hd. unfold tetD. cases0 Hd.
    + exists [q0; q1; q3; q7]. cbn; auto.
    + exists [q0; q1; q3; q7]. cbn; auto.
    + exists [q0; q3; q2; q7]. cbn; auto 10.
    + exists [q0; q1; q3; q7]. cbn; auto.
    + exists [q0; q5; q7; q4]. cbn; auto 10.
    + exists [q0; q5; q7; q4]. cbn; auto 10.
    + exists [q0; q2; q6; q7]. cbn; auto 10.
    + exists [q0; q1; q3; q7]. cbn; auto 10.
  - intros d0 d1 d2 r s. apply hat_fun.
  - intros d0 d1 d2 d Hd H. exact (hat_out _ d Hd H).
  - exact tet_in.
  - intros t Ht. apply unit3 in Ht as (H1 & H2). exact (tet_cover t H1 H2).
Qed.
Lemma hex_grid : gtiling hex_weights N3 (gpos dec3) (fun j => INR (co j (nx, ny, nz))) (grid_cells enc3 bases3 hexD).
Proof.
  apply (grid_tiling (nx, ny, nz) enc3 dec3 N3 bases3 hexD 8 hex_weights hat3).
  - exact enc3_ok.
  - exact dec3_ok.
  - exact bases3_in.
  - exact bases3_nd.
  - exact hex_ok.
  - apply corner3. unfold hexD. intros D d HD Hd. cases0 HD; cases0 Hd; cbn; lia.
  - intros D HD. unfold hexD in HD. nds HD.
  - intros D j HD. low HD j.
  - unfold hexD. constructor; [apply Forall_nil|constructor].
  - intros d Hd. apply used3 in Hd. exists [q0; q1; q2; q3; q4; q5; q6; q7]. split; [left; reflexivity|exact Hd].
  - exact hat3_fun.
  - exact hat3_out.
  - exact hex_in.
  - intros t Ht. apply unit3 in Ht as (H1 & H2). exact (hex_cover t H1 H2).
Qed.
Lemma prism_grid : gtiling prism_weights N3 (gpos dec3) (fun j => INR (co j (nx, ny, nz))) (grid_cells enc3 bases3 prismD).
Proof.
  apply (grid_tiling (nx, ny, nz) enc3 dec3 N3 bases3 prismD 6 prism_weights hatp).
  - exact enc3_ok.
  - exact dec3_ok.
  - exact bases3_in.
  - exact bases3_nd.
  - exact prism_ok.
  - apply corner3. unfold prismD. intros D d HD Hd. cases0 HD; cases0 Hd; cbn; lia.
  - intros D HD. unfold prismD in HD. nds HD.
  - intros D j HD. low HD j.
  - unfold prismD, csum. repeat (constructor; [repeat (apply Forall_cons; [first [exists 0; vm_compute; discriminate|exists 1; vm_compute; discriminate|exists 2; vm_compute; discriminate]|]); apply Forall_nil|]). constructor.
  - intros d Hd. apply used3 in Hd. unfold prismD. cases0 Hd.
    + exists [q0; q1; q2; q4; q5; q6]. cbn; auto 10.
    + exists [q0; q1; q2; q4; q5; q6]. cbn; auto 10.
    + exists [q0; q1; q2; q4; q5; q6]. cbn; auto 10.
    + exists [q1; q2; q3; q5; q6; q7]. cbn; auto 10.
    + exists [q0; q1; q2; q4; q5; q6]. cbn; auto 10.
    + exists [q0; q1; q2; q4; q5; q6]. cbn; auto 10.
    + exists [q0; q1; q2; q4; q5; q6]. cbn; auto 10.
    + exists [q1; q2; q3; q5; q6; q7]. cbn; auto 10.
  - exact hatp_fun.
  - exact hatp_out.
  - exact prism_in.
  - intros t Ht. apply unit3 in Ht as (H1 & H2). exact (prism_cover t H1 H2).
Qed.
End Box.

Lemma tet_cells_grid nx ny nz i : tet_cells (nx, ny, nz) i = map (cell_of (enc3 nx ny) (base3 nx ny i)) tetD.
Proof.
  unfold tet_cells, tetD, cell_of, enc3, base3, padd. cbn [map fst snd q0 q1 q2 q3 q4 q5 q6 q7].
  set (iz := i / (nx * ny)). set (iy := i mod (nx * ny) / nx). set (ix := (i mod (nx * ny)) mod nx).
  repeat match goal with |- _ :: _ = _ :: _ => f_equal end; lia.
Qed.
Lemma hex_cells_grid nx ny nz i : hex_cells (nx, ny, nz) i = map (cell_of (enc3 nx ny) (base3 nx ny i)) hexD.
Proof.
  unfold hex_cells, hexD, cell_of, enc3, base3, padd. cbn [map fst snd q0 q1 q2 q3 q4 q5 q6 q7].
  set (iz := i / (nx * ny)). set (iy := i mod (nx * ny) / nx). set (ix := (i mod (nx * ny)) mod nx).
  repeat match goal with |- _ :: _ = _ :: _ => f_equal end; lia.
Qed.
Lemma prism_cells_grid nx ny nz i : prism_cells (nx, ny, nz) i = map (cell_of (enc3 nx ny) (base3 nx ny i)) prismD.
Proof.
  unfold prism_cells, prismD, cell_of, enc3, base3, padd. cbn [map fst snd q0 q1 q2 q3 q4 q5 q6 q7].
  set (iz := i / (nx * ny)). set (iy := i mod (nx * ny) / nx). set (ix := (i mod (nx * ny)) mod nx).
  repeat match goal with |- _ :: _ = _ :: _ => f_equal end; lia.
Qed.

Lemma cells_grid cells_of nx ny nz Ds Q : 0 < Q ->
  (forall i, cells_of (nx, ny, nz) i = map (cell_of (enc3 nx ny) (base3 nx ny i)) Ds) ->
  concat (map (fun s => concat (map (cells_of (nx, ny, nz)) (my_range s (num_cuboids (nx, ny, nz)) Q))) (seq 0 Q))
  = grid_cells (enc3 nx ny) (bases3 nx ny nz) Ds.
Proof.
  intros HQ H. unfold grid_cells, bases3. rewrite map_map. cbn [num_cuboids].
  rewrite <- (ranges_concat (nx * ny * nz) Q HQ). generalize (seq 0 Q) as l. induction l as [|s l IH]; [reflexivity|].
  cbn [map concat]. rewrite map_app, concat_app, IH. f_equal. f_equal. apply map_ext. exact H.
Qed.

Lemma less_true a b : (a < b)%R -> less a b = true.
Proof. intro H. unfold less. destruct (Rlt_dec a b); [reflexivity|contradiction]. Qed.
Lemma less_false a b : (b <= a)%R -> less a b = false.
Proof. intro H. unfold less. destruct (Rlt_dec a b); [lra|reflexivity]. Qed.
Lemma INR_pos k : 1 <= k -> (0 < INR k)%R.
Proof. intro H. apply lt_0_INR. lia. Qed.
Lemma width_pos a b k : 1 <= k -> (a < b)%R -> (0 < (b - a) / INR k)%R.
Proof. intros Hk H. apply Rdiv_lt_0_compat; [lra|apply INR_pos, Hk]. Qed.

Lemma box_statement (eps : R) (Q nx ny nz : nat) (x0 y0 z0 x1 y1 z1 : R) (celltype : shape) (comm : nat -> nat * nat) :
  0 < Q -> is_solid celltype = true -> 1 <= nx -> 1 <= ny -> 1 <= nz ->
  (x0 < x1)%R -> (y0 < y1)%R -> (z0 < z1)%R ->
  (2 * eps <= (x1 - x0) / INR nx)%R -> (2 * eps <= (y1 - y0) / INR ny)%R -> (2 * eps <= (z1 - z0) / INR nz)%R ->
  (celltype = prism -> forall s, s < Q -> comm s = (s, Q)) ->
  exists (xs : nat -> list (list R)) (cs : nat -> list (list nat)),
    (forall s, s < Q ->
      create_box eps (comm s) (Some (s, Q)) (x0, y0, z0) (x1, y1, z1) (nx, ny, nz) celltype = Some (xs s, cs s)) /\
    let X := concat (map xs (seq 0 Q)) in
    let cells := concat (map cs (seq 0 Q)) in
    length X = (nx + 1) * (ny + 1) * (nz + 1) /\ length cells = box_count celltype * (nx * ny * nz) /\
    tiling (box_weights celltype) X cells (corner [x0; y0; z0]) (corner [x1; y1; z1]).
Proof.
  intros HQ HT Hx Hy Hz Lx Ly Lz Ex Ey Ez Hp.
  set (e0 := ((x1 - x0) / INR nx)%R) in *. set (e1 := ((y1 - y0) / INR ny)%R) in *. set (e2 := ((z1 - z0) / INR nz)%R) in *.
  pose proof (width_pos x0 x1 nx Hx Lx : 0 < e0)%R as P0. pose proof (width_pos y0 y1 ny Hy Ly : 0 < e1)%R as P1. pose proof (width_pos z0 z1 nz Hz Lz : 0 < e2)%R as P2.
  set (pt := fun v => let p := v mod ((nx + 1) * (ny + 1)) in
      [ (x0 + INR (p mod (nx + 1)) * e0)%R; (y0 + INR (p / (nx + 1)) * e1)%R; (z0 + INR (v / ((nx + 1) * (ny + 1))) * e2)%R ]).
  set (xs := fun s => map pt (my_range s (N3 nx ny nz) Q)).
  assert (G : forall s, create_geom eps s Q (x0, y0, z0) (x1, y1, z1) (nx, ny, nz) = Some (xs s)).
  { intro s. unfold create_geom. fold e0 e1 e2. cbn [existsb]. rewrite !Rabs_pos_eq by lra. rewrite !less_false by assumption. reflexivity. }
  assert (GX : concat (map xs (seq 0 Q)) = map pt (seq 0 (N3 nx ny nz))).
  { unfold xs. rewrite concat_map_map, ranges_concat by exact HQ. reflexivity. }
  assert (F : forall cells_of Ds W,
    (forall i, cells_of (nx, ny, nz) i = map (cell_of (enc3 nx ny) (base3 nx ny i)) Ds) ->
    gtiling W (N3 nx ny nz) (gpos (dec3 nx ny)) (fun j => INR (co j (nx, ny, nz))) (grid_cells (enc3 nx ny) (bases3 nx ny nz) Ds) ->
    (forall l, W l -> (forall a, In a l -> (0 <= a)%R) /\ rsum l = 1%R) ->
    length Ds = box_count celltype -> W = box_weights celltype ->
    (forall s, s < Q -> create_box eps (comm s) (Some (s, Q)) (x0, y0, z0) (x1, y1, z1) (nx, ny, nz) celltype
      = build_box eps cells_of (s, Q) (s, Q) (x0, y0, z0) (x1, y1, z1) (nx, ny, nz)) ->
    exists xs cs, (forall s, s < Q ->
      create_box eps (comm s) (Some (s, Q)) (x0, y0, z0) (x1, y1, z1) (nx, ny, nz) celltype = Some (xs s, cs s)) /\
    let X := concat (map xs (seq 0 Q)) in
    let cells := concat (map cs (seq 0 Q)) in
    length X = (nx + 1) * (ny + 1) * (nz + 1) /\ length cells = box_count celltype * (nx * ny * nz) /\
    tiling (box_weights celltype) X cells (corner [x0; y0; z0]) (corner [x1; y1; z1])).
  { intros cells_of Ds W Hc HG HW HD EW Hb. exists xs, (fun s => concat (map (cells_of (nx, ny, nz)) (my_range s (num_cuboids (nx, ny, nz)) Q))).
    split; [intros s Hs; rewrite (Hb s Hs); unfold build_box; cbn [fst snd]; rewrite G; reflexivity|].
    cbv zeta. rewrite GX, (cells_grid cells_of nx ny nz Ds Q HQ Hc). rewrite map_length, seq_length.
    split; [reflexivity|]. split.
    { unfold grid_cells, bases3. rewrite <- HD, map_map. generalize (nx * ny * nz) as k. generalize (base3 nx ny) as bs. clear. intros bs k.
      generalize 0 as a. induction k as [|k IH]; intro a; [cbn; lia|]. cbn [seq map concat]. rewrite app_length, map_length, IH. lia. }
    rewrite <- EW. set (h := fun j => match j with 0 => e0 | 1 => e1 | 2 => e2 | _ => 1%R end).
    apply (tiling_ext _ _ _ _ (fun j => corner [x0; y0; z0] j + INR (co j (nx, ny, nz)) * h j)%R).
    { pose proof (INR_pos nx Hx). pose proof (INR_pos ny Hy). pose proof (INR_pos nz Hz).
      intros [|[|[|j]]]; unfold corner; cbn [nth h co fst snd]; unfold e0, e1, e2; [field; lra|field; lra|field; lra|]. destruct j; cbn; lra. }
    apply (reduce W _ (gpos (dec3 nx ny)) (corner [x0; y0; z0]) h (fun j => INR (co j (nx, ny, nz)))).
    - exact HW.
    - rewrite map_length, seq_length. intros v j Hv. rewrite coordinate_map by exact Hv. unfold pt, gpos, dec3, corner.
      destruct j as [|[|[|j]]]; cbn [nth co fst snd h]; [reflexivity..|]. destruct j; cbn; lra.
    - intros [|[|[|j]]]; cbn [h]; lra.
    - rewrite map_length, seq_length. exact HG. }
  assert (B : existsb (fun e => e <? 1) [nx; ny; nz] = false).
  { cbn [existsb]. rewrite !(proj2 (Nat.ltb_ge _ 1)) by lia. reflexivity. }
  destruct celltype; try discriminate.
  - apply (F tet_cells tetD (simplex_weights 4)); [apply tet_cells_grid|apply tet_grid; assumption|intros l (_ & H); exact H|reflexivity|reflexivity|].
    intros s Hs. unfold create_box. rewrite B, !less_true by assumption. reflexivity.
  - apply (F hex_cells hexD hex_weights); [apply hex_cells_grid|apply hex_grid; assumption|intros l H; apply (hex_ok l H)|reflexivity|reflexivity|].
    intros s Hs. unfold create_box. rewrite B, !less_true by assumption. reflexivity.
  - apply (F prism_cells prismD prism_weights); [apply prism_cells_grid|apply prism_grid; assumption|intros l H; apply (prism_ok l H)|reflexivity|reflexivity|].
    intros s Hs. unfold create_box. rewrite B, !less_true by assumption. cbn [andb negb build_prism]. rewrite (Hp eq_refl s Hs). reflexivity.
Qed.

(** ** Lists over a grid *)
Lemma grid_list {A} (f : nat -> nat -> A) m k : 0 < k ->
  concat (map (fun i => map (f i) (seq 0 k)) (seq 0 m)) = map (fun v => f (v / k) (v mod k)) (seq 0 (m * k)).
Proof.
  intro Hk. induction m as [|m IH]; [reflexivity|].
  rewrite seq_S, map_app, concat_app, IH. cbn [map concat Nat.add]. rewrite app_nil_r.
  replace (S m * k) with (m * k + k) by lia. rewrite seq_app, map_app. f_equal. cbn [Nat.add].
  transitivity (map (fun j => f ((m * k + j) / k) ((m * k + j) mod k)) (seq 0 k)).
  - apply map_ext_in. intros j Hj. apply in_seq in Hj. destruct (divmod_add k m j ltac:(lia)) as (-> & ->). reflexivity.
  - generalize (m * k) as a. intro a.
    assert (E : seq a k = map (Nat.add a) (seq 0 k)).
    { clear. rewrite <- (Nat.add_0_r a) at 1. generalize 0 as b. induction k as [|k IH]; intro b; [reflexivity|].
      cbn [seq map]. f_equal. rewrite <- IH. f_equal. lia. }
    rewrite E, map_map. reflexivity.
Qed.
Lemma embed_nth gdim x j : length x <= gdim -> nth j (embed gdim x) 0%R = nth j x 0%R.
Proof.
  intro H. unfold embed. destruct (Nat.lt_ge_cases j gdim) as [L|L].
  - assert (E : nth j (firstn gdim (x ++ repeat 0%R gdim)) 0%R = nth j (x ++ repeat 0%R gdim) 0%R).
    { rewrite <- (firstn_skipn gdim (x ++ repeat 0%R gdim)) at 2. rewrite app_nth1; [reflexivity|].
      rewrite firstn_length, app_length, repeat_length. lia. }
    rewrite E. destruct (Nat.lt_ge_cases j (length x)) as [M|M].
    + apply app_nth1, M.
    + rewrite app_nth2 by exact M. rewrite (nth_overflow x) by exact M. apply nth_repeat.
  - rewrite !nth_overflow; [reflexivity|lia|]. rewrite firstn_length. lia.
Qed.

(** ** Quadrilaterals *)
Section Quad.
Variables nx ny : nat.
Definition encq (a : place) : nat := fst (fst a) * (ny + 1) + snd (fst a).
Definition decq (v : nat) : place := (v / (ny + 1), v mod (ny + 1), 0).
Definition baseq (i : nat) : place := (i / ny, i mod ny, 0).
Definition basesq := map baseq (seq 0 (nx * ny)).
Lemma encq_ok a : ple a (nx, ny, 0) -> encq a < (nx + 1) * (ny + 1) /\ decq (encq a) = a.
Proof.
  intro H. apply ple_iff in H as (H0 & H1 & H2). destruct a as [[a b] c]. cbn [fst snd] in *. unfold encq, decq. cbn [fst snd].
  split; [nia|]. destruct (divmod_add (ny + 1) a b ltac:(lia)) as (-> & ->). repeat f_equal; lia.
Qed.
Lemma decq_ok v : v < (nx + 1) * (ny + 1) -> ple (decq v) (nx, ny, 0) /\ encq (decq v) = v.
Proof.
  intro H. destruct (divmod_split (ny + 1) v (nx + 1) ltac:(lia) ltac:(nia)) as (H1 & H2 & H3). split.
  - apply ple_iff. unfold decq. cbn [fst snd]. lia.
  - unfold encq, decq. cbn [fst snd]. lia.
Qed.
Hypothesis Hx : 1 <= nx.
Hypothesis Hy : 1 <= ny.
Lemma basesq_in b : In b basesq <-> forall j, co j b < max 1 (co j (nx, ny, 0)).
Proof.
  unfold basesq. rewrite in_map_iff. split.
  - intros (i & <- & Hi). apply in_seq in Hi. destruct (divmod_split ny i nx ltac:(nia) ltac:(nia)) as (H1 & H2 & H3).
    intros [|[|[|j]]]; cbn [co baseq fst snd]; lia.
  - intro H. pose proof (H 0) as H0. pose proof (H 1) as H1. pose proof (H 2) as H2. destruct b as [[a b] c]. cbn [co fst snd] in *.
    exists (a * ny + b). split.
    + unfold baseq. destruct (divmod_add ny a b ltac:(lia)) as (-> & ->). repeat f_equal; lia.
    + apply in_seq. nia.
Qed.
Lemma basesq_nd : NoDup basesq.
Proof.
  unfold basesq. apply ScattererProofs.NoDup_map_inj; [apply seq_NoDup|].
  intros i k Hi Hk E. apply in_seq in Hi. apply in_seq in Hk. unfold baseq in E. injection E as E1 E2.
  destruct (divmod_split ny i nx ltac:(nia) ltac:(nia)) as (H1 & H2 & H3).
  destruct (divmod_split ny k nx ltac:(nia) ltac:(nia)) as (K1 & K2 & K3).
  rewrite H3, K3, E1, E2. reflexivity.
Qed.
Lemma quad_grid : gtiling quad_weights ((nx + 1) * (ny + 1)) (gpos decq) (fun j => INR (co j (nx, ny, 0))) (grid_cells encq basesq quadD).
Proof.
  apply (grid_tiling (nx, ny, 0) encq decq _ basesq quadD 4 quad_weights hat3).
  - exact encq_ok.
  - exact decq_ok.
  - exact basesq_in.
  - exact basesq_nd.
  - exact quad_ok.
  - unfold quadD. intros D d j HD Hd. cases0 HD; cases0 Hd; destruct j as [|[|[|j]]]; cbn [co fst snd q0 q1 q2 q3]; lia.
  - intros D HD. unfold quadD in HD. cases0 HD; (split; [|reflexivity]); repeat (apply NoDup_cons; [cbn; intuition discriminate|]); apply NoDup_nil.
  - intros D j HD. unfold csum, quadD in *. cases0 HD; destruct j as [|[|[|j]]]; vm_compute; lia.
  - unfold quadD. constructor; [apply Forall_nil|constructor].
  - intros d Hd. exists [q0; q2; q1; q3]. split; [left; reflexivity|].
    pose proof (Hd 0) as H0. pose proof (Hd 1) as H1. pose proof (Hd 2) as H2. destruct d as [[a b] c]. cbn [co fst snd] in *.
    assert (c = 0) by lia. subst c. destruct a as [|[|a]]; [| |lia]; (destruct b as [|[|b]]; [| |lia]); cbn; auto 10.
  - exact hat3_fun.
  - exact hat3_out.
  - exact quad_in.
  - intros t Ht. apply quad_cover.
    + intros j Hj. pose proof (Ht j) as B. replace (min 1 (co j (nx, ny, 0))) with 1 in B; [exact B|]. destruct j as [|[|j]]; cbn [co fst snd]; lia.
    + intros j Hj. pose proof (Ht j) as B. destruct j as [|[|[|j]]]; [lia|lia|cbn in B; lra|cbn in B; lra].
Qed.
Lemma quad_cells_list : quad_cells nx ny =
  map (fun i => let i0 := i / ny * (ny + 1) in [i0 + i mod ny; i0 + i mod ny + 1; i0 + i mod ny + ny + 1; i0 + i mod ny + ny + 2]) (seq 0 (nx * ny)).
Proof. exact (grid_list (fun ix iy => let i0 := ix * (ny + 1) in [i0 + iy; i0 + iy + 1; i0 + iy + ny + 1; i0 + iy + ny + 2]) nx ny ltac:(lia)). Qed.
Lemma quad_cells_grid : quad_cells nx ny = grid_cells encq basesq quadD.
Proof.
  rewrite quad_cells_list.
  unfold grid_cells, basesq. rewrite map_map. unfold quadD. cbn [map].
  generalize (seq 0 (nx * ny)) as l. induction l as [|i l IH]; [reflexivity|]. cbn [map concat]. cbn [app]. rewrite IH. f_equal.
  unfold cell_of, encq, padd, baseq. cbn [map fst snd q0 q1 q2 q3]. set (ix := i / ny). set (iy := i mod ny).
  repeat match goal with |- _ :: _ = _ :: _ => f_equal end; lia.
Qed.
End Quad.

(** ** Intervals *)
Section Segment.
Variable n : nat.
Definition enc1 (a : place) : nat := fst (fst a).
Definition dec1 (v : nat) : place := (v, 0, 0).
Definition bases1 : list place := map dec1 (seq 0 n).
Hypothesis Hn : 1 <= n.
Lemma enc1_ok a : ple a (n, 0, 0) -> enc1 a < n + 1 /\ dec1 (enc1 a) = a.
Proof.
  intro H. apply ple_iff in H as (H0 & H1 & H2). destruct a as [[a b] c]. cbn [fst snd] in *. unfold enc1, dec1. cbn [fst snd].
  split; [lia|]. repeat f_equal; lia.
Qed.
Lemma seg_grid : gtiling (simplex_weights 2) (n + 1) (gpos dec1) (fun j => INR (co j (n, 0, 0))) (grid_cells enc1 bases1 segD).
Proof.
  apply (grid_tiling (n, 0, 0) enc1 dec1 _ bases1 segD 2 (simplex_weights 2) hat3).
  - exact enc1_ok.
  - intros v Hv. split; [|reflexivity]. apply ple_iff. unfold dec1. cbn [fst snd]. lia.
  - intro b. unfold bases1. rewrite in_map_iff. split.
    + intros (i & <- & Hi) j. apply in_seq in Hi. destruct j as [|[|[|j]]]; cbn [co dec1 fst snd]; lia.
    + intro H. pose proof (H 0) as H0. pose proof (H 1) as H1. pose proof (H 2) as H2. destruct b as [[a b] c]. cbn [co fst snd] in *.
      exists a. split; [unfold dec1; repeat f_equal; lia|]. apply in_seq. lia.
  - unfold bases1. apply ScattererProofs.NoDup_map_inj; [apply seq_NoDup|]. intros x y _ _ E. unfold dec1 in E. congruence.
  - intros l H. exact H.
  - unfold segD. intros D d j HD Hd. cases0 HD; cases0 Hd; destruct j as [|[|[|j]]]; cbn [co fst snd q0 q1]; lia.
  - intros D HD. unfold segD in HD. cases0 HD; (split; [|reflexivity]); repeat (apply NoDup_cons; [cbn; intuition discriminate|]); apply NoDup_nil.
  - intros D j HD. unfold csum, segD in *. cases0 HD; destruct j as [|[|[|j]]]; vm_compute; lia.
  - unfold segD. constructor; [apply Forall_nil|constructor].
  - intros d Hd. exists [q0; q1]. split; [left; reflexivity|].
    pose proof (Hd 0) as H0. pose proof (Hd 1) as H1. pose proof (Hd 2) as H2. destruct d as [[a b] c]. cbn [co fst snd] in *.
    assert (c = 0) by lia. assert (b = 0) by lia. subst c b. destruct a as [|[|a]]; [| |lia]; cbn; auto.
  - exact hat3_fun.
  - exact hat3_out.
  - exact seg_in.
  - intros t Ht. apply seg_cover.
    + pose proof (Ht 0) as B. cbn [co fst] in B. replace (min 1 n) with 1 in B by lia. exact B.
    + intros j Hj. pose proof (Ht j) as B. destruct j as [|[|[|j]]]; [lia|cbn in B; lra|cbn in B; lra|cbn in B; lra].
Qed.
Lemma seg_cells_grid : map (fun ix => [ix; ix + 1]) (seq 0 n) = grid_cells enc1 bases1 segD.
Proof.
  unfold grid_cells, bases1. rewrite map_map. unfold segD. cbn [map].
  generalize (seq 0 n) as l. induction l as [|i l IH]; [reflexivity|]. cbn [map concat app]. rewrite IH. f_equal.
  unfold cell_of, enc1, padd, dec1. cbn [map fst snd q0 q1]. f_equal. lia.
Qed.
End Segment.

Lemma quad_statement (eps : R) (nx ny gdim : nat) (x0 y0 x1 y1 : R) (diagonal : diagonal_type) :
  1 <= nx -> 1 <= ny -> 2 <= gdim <= 3 -> (x0 < x1)%R -> (y0 < y1)%R ->
  (forall rank, 0 < rank -> create_rectangle eps rank (x0, y0) (x1, y1) (nx, ny) quadrilateral diagonal gdim = Some ([], [])) /\
  exists X cells, create_rectangle eps 0 (x0, y0) (x1, y1) (nx, ny) quadrilateral diagonal gdim = Some (X, cells) /\
    length X = (nx + 1) * (ny + 1) /\ length cells = nx * ny /\ (forall x, In x X -> length x = gdim) /\
    tiling quad_weights X cells (corner [x0; y0]) (corner [x1; y1]).
Proof.
  intros Hx Hy Hg Lx Ly.
  assert (B : existsb (fun e => e <? 1) [nx; ny] = false).
  { cbn [existsb]. rewrite !(proj2 (Nat.ltb_ge _ 1)) by lia. reflexivity. }
  assert (Bg : (gdim <? 2) || (3 <? gdim) = false) by (apply orb_false_iff; split; apply Nat.ltb_ge; lia).
  unfold create_rectangle, build_quad. rewrite B, Bg, !less_true by assumption. cbn [andb negb].
  split. { intros rank Hr. destruct (Nat.eqb_spec rank 0); [lia|reflexivity]. }
  cbn [Nat.eqb]. eexists _, _. split; [reflexivity|].
  set (ab := ((x1 - x0) / INR nx)%R). set (cd := ((y1 - y0) / INR ny)%R).
  pose proof (width_pos x0 x1 nx Hx Lx : 0 < ab)%R as P0. pose proof (width_pos y0 y1 ny Hy Ly : 0 < cd)%R as P1.
  unfold quad_vertices. rewrite (grid_list (fun ix iy => [(x0 + ab * INR ix)%R; (y0 + cd * INR iy)%R]) (nx + 1) (ny + 1)) by lia.
  rewrite map_map, map_length, seq_length. split; [reflexivity|]. split.
  { rewrite quad_cells_list by lia.
    rewrite map_length, seq_length. reflexivity. }
  split. { intros x Hxi. apply in_map_iff in Hxi as (v & <- & _). unfold embed. rewrite firstn_length, app_length, repeat_length. cbn. lia. }
  rewrite quad_cells_grid by assumption.
  set (h := fun j => match j with 0 => ab | 1 => cd | _ => 1%R end).
  apply (tiling_ext _ _ _ _ (fun j => corner [x0; y0] j + INR (co j (nx, ny, 0%nat)) * h j)%R).
  { pose proof (INR_pos nx Hx). pose proof (INR_pos ny Hy).
    intros [|[|[|j]]]; unfold corner; cbn [nth h co fst snd]; unfold ab, cd; [field; lra|field; lra|cbn; lra|]. destruct j; cbn; lra. }
  apply (reduce quad_weights _ (gpos (decq ny)) (corner [x0; y0]) h (fun j => INR (co j (nx, ny, 0)))).
  - intros l H. apply (quad_ok l H).
  - rewrite map_length, seq_length. intros v j Hv. rewrite coordinate_map by exact Hv. rewrite embed_nth by (cbn; lia).
    unfold gpos, decq, corner. destruct j as [|[|[|j]]]; cbn [nth co fst snd h]; [lra|lra|cbn; lra|]. destruct j; cbn; lra.
  - intros [|[|[|j]]]; cbn [h]; lra.
  - rewrite map_length, seq_length. apply quad_grid; assumption.
Qed.

Lemma interval_statement (eps : R) (n gdim : nat) (a b : R) :
  1 <= n -> 1 <= gdim <= 3 -> (a < b)%R -> (eps <= b - a)%R ->
  (forall rank, 0 < rank -> create_interval eps rank n a b gdim = Some ([], [])) /\
  exists X cells, create_interval eps 0 n a b gdim = Some (X, cells) /\
    length X = n + 1 /\ length cells = n /\ (forall x, In x X -> length x = gdim) /\
    tiling (simplex_weights 2) X cells (corner [a]) (corner [b]).
Proof.
  intros Hn Hg L Le.
  assert (Bg : (gdim <? 1) || (3 <? gdim) = false) by (apply orb_false_iff; split; apply Nat.ltb_ge; lia).
  unfold create_interval. rewrite Bg, (proj2 (Nat.ltb_ge n 1)), less_true by (lia || assumption). cbn [negb].
  rewrite less_false. 2:{ rewrite Rabs_minus_sym, Rabs_pos_eq; lra. }
  split. { intros rank Hr. destruct (Nat.eqb_spec rank 0); [lia|reflexivity]. }
  cbn [Nat.eqb create_interval_cells]. eexists _, _. split; [reflexivity|].
  set (e := ((b - a) / INR n)%R). pose proof (width_pos a b n Hn L : 0 < e)%R as P0.
  rewrite map_map, !map_length, !seq_length. split; [reflexivity|]. split; [reflexivity|].
  split. { intros x Hxi. apply in_map_iff in Hxi as (v & <- & _). unfold embed. rewrite firstn_length, app_length, repeat_length. cbn. lia. }
  rewrite seg_cells_grid by assumption.
  set (h := fun j => match j with 0 => e | _ => 1%R end).
  apply (tiling_ext _ _ _ _ (fun j => corner [a] j + INR (co j (n, 0%nat, 0%nat)) * h j)%R).
  { pose proof (INR_pos n Hn).
    intros [|[|[|j]]]; unfold corner; cbn [nth h co fst snd]; unfold e; [field; lra|cbn; lra|cbn; lra|]. destruct j; cbn; lra. }
  apply (reduce (simplex_weights 2) _ (gpos dec1) (corner [a]) h (fun j => INR (co j (n, 0, 0)))).
  - intros l (_ & H). exact H.
  - rewrite map_length, seq_length. intros v j Hv. rewrite coordinate_map by exact Hv. rewrite embed_nth by (cbn; lia).
    unfold gpos, dec1, corner. destruct j as [|[|[|j]]]; cbn [nth co fst snd h]; [lra|cbn; lra|cbn; lra|]. destruct j; cbn; lra.
  - intros [|[|[|j]]]; cbn [h]; lra.
  - rewrite map_length, seq_length. apply seg_grid; assumption.
Qed.

(** ** What fails *)
Lemma box_others (eps : R) (comm : nat * nat) (nx ny nz : nat) (x0 y0 z0 x1 y1 z1 : R) (celltype : shape) :
  is_solid celltype = true -> 1 <= nx -> 1 <= ny -> 1 <= nz -> (x0 < x1)%R -> (y0 < y1)%R -> (z0 < z1)%R ->
  create_box eps comm None (x0, y0, z0) (x1, y1, z1) (nx, ny, nz) celltype = Some ([], []).
Proof.
  intros HT Hx Hy Hz Lx Ly Lz. unfold create_box.
  assert (B : existsb (fun e => e <? 1) [nx; ny; nz] = false).
  { cbn [existsb]. rewrite !(proj2 (Nat.ltb_ge _ 1)) by lia. reflexivity. }
  rewrite B, !less_true by assumption. cbn [andb negb]. destruct celltype; try discriminate HT; reflexivity.
Qed.

Lemma prism_subcomm : exists X cells,
  create_box (/ 1000) (0, 2) (Some (0, 1)) (0, 0, 0)%R (2, 1, 1)%R (2, 1, 1) prism = Some (X, cells) /\
  create_box (/ 1000) (1, 2) None (0, 0, 0)%R (2, 1, 1)%R (2, 1, 1) prism = Some ([], []) /\
  length cells = 2 /\ ~ tiling prism_weights X cells (corner [0; 0; 0])%R (corner [2; 1; 1])%R.
Proof.
  destruct (box_statement (/ 1000) 1 2 1 1 0 0 0 2 1 1 prism (fun _ => (0, 1))) as (xs & cs & H & LX & LC & _);
    try lia; try reflexivity; try (cbn; lra). { intros _ s Hs. f_equal; lia. }
  specialize (H 0 ltac:(lia)). exists (xs 0), [[0; 1; 3; 6; 7; 9]; [1; 3; 4; 7; 9; 10]].
  cbn [seq map concat] in LX. rewrite app_nil_r in LX.
  split.
  { revert H. unfold create_box, build_prism, build_box. cbn [existsb Nat.ltb Nat.leb orb].
    rewrite !less_true by lra. cbn [andb negb fst snd]. destruct (create_geom _ _ _ _ _ _) as [x|]; cbn [obind]; [|discriminate].
    intro H. injection H as E _. rewrite E. vm_compute. reflexivity. }
  split; [apply box_others; try lia; try reflexivity; lra|]. split; [reflexivity|].
  intros [_ _ Hu _ _ _]. destruct (Hu 2 ltac:(rewrite LX; cbn; lia)) as (c & Hc & Hv). cbn [In] in Hc.
  destruct Hc as [<-|[<-|[]]]; cbn in Hv; intuition discriminate.
Qed.

Lemma point_order eps comm sub rank nx ny nz x0 y0 z0 x1 y1 z1 celltype diagonal gdim :
  (x0 < x1)%R ->
  create_box eps comm sub (x1, y1, z1) (x0, y0, z0) (nx, ny, nz) celltype = None /\
  create_rectangle eps rank (x1, y1) (x0, y0) (nx, ny) celltype diagonal gdim = None /\
  create_interval eps rank nx x1 x0 gdim = None.
Proof.
  intro L. unfold create_box, create_rectangle, create_interval. rewrite less_false by lra. cbn [andb negb].
  split; [destruct (existsb _ _); reflexivity|]. split.
  - destruct (_ || _); [reflexivity|]. destruct (existsb _ _); reflexivity.
  - destruct (_ || _); [reflexivity|]. destruct (_ <? _); reflexivity.
Qed.
