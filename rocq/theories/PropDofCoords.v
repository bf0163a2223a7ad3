(** Property C83. *)
From Verif Require Import Base BaseProofs Algo AlgoProofs InterpSpec NonMatchingSpec DofCoords DofCoordsSpec DofCoordsProofs.
From Coq Require Import ZArith.
Open Scope nat_scope.

(** C83: every dof of a cell gets the coordinates of its point, in rows of three or in three
    rows, padded with zeros; so do dofs that are in no cell. *)
Theorem C83_coordinates :
  forall T (zero : T) add mul gdim x_g types (transpose : bool) index_map_bs num_indices dofmap_bs space_dimension block_size scalar_dofs num_dofs,
  gdim <= 3 -> 0 < dofmap_bs -> 0 < block_size -> scalar_dofs = space_dimension / block_size -> num_dofs = index_map_bs * num_indices / dofmap_bs ->
  (forall t, In t types -> cells_fit T x_g scalar_dofs num_dofs t) -> points_agree T zero add mul gdim x_g types ->
  exists coords, tabulate_dof_coordinates T zero add mul gdim x_g transpose false false index_map_bs num_indices dofmap_bs space_dimension block_size types = Some coords /\
  length coords = 3 * num_dofs /\
  forall d k, d < num_dofs -> k < 3 -> let i := if transpose then num_dofs * k + d else 3 * d + k in
    (forall p, has_point T zero add mul x_g types d p -> k < gdim -> nth_error coords i = Some (p k)) /\
    ((forall p, ~ has_point T zero add mul x_g types d p) \/ gdim <= k -> nth_error coords i = Some zero).
Proof.
  intros T zero add mul gdim x_g types tr ibs ni dbs sd bs s n Hg H1 H2 Es En Hf Ha.
  destruct (tabulate_ok T zero add mul gdim x_g Hg tr types s n Hf Ha ibs ni dbs sd bs H1 H2 Es En) as (coords & Ec & Lc & Hc).
  exists coords. split; [exact Ec|]. split; [exact Lc|]. intros d k Hd Hk i. replace i with (coord_at tr n d k) by (unfold i, coord_at; destruct tr; lia). exact (Hc d k Hd Hk).
Qed.
Print Assumptions C83_coordinates.

Lemma has_point_lt T (zero : T) add mul x_g types s n d p : (forall t, In t types -> cells_fit T x_g s n t) -> has_point T zero add mul x_g types d p -> d < n.
Proof.
  intros Hf (t & c & j & nodes & dofs & row & Ht & Hc & _ & Ed & Ej & _). destruct (Hf t Ht) as (_ & _ & _ & nd & _ & H).
  destruct (H c Hc) as (nodes' & dofs' & _ & Ed' & _ & _ & _ & Hd). rewrite Ed in Ed'. injection Ed' as <-. apply Hd. eapply nth_error_In; exact Ej.
Qed.

(** The located dofs are those whose points satisfy the marker, in increasing order. *)
Theorem C83_located :
  forall T (zero : T) add mul gdim x_g types index_map_bs num_indices dofmap_bs space_dimension block_size scalar_dofs num_dofs marker_fn f,
  gdim <= 3 -> 0 < dofmap_bs -> 0 < block_size -> scalar_dofs = space_dimension / block_size -> num_dofs = index_map_bs * num_indices / dofmap_bs ->
  (forall t, In t types -> cells_fit T x_g scalar_dofs num_dofs t) -> points_agree T zero add mul gdim x_g types -> pointwise zero marker_fn f ->
  exists l, locate_dofs T [false] (tabulate_dof_coordinates T zero add mul gdim x_g true false false index_map_bs num_indices dofmap_bs space_dimension block_size types) marker_fn = Some l /\
  StronglySorted lt l /\
  (forall d p, has_point T zero add mul x_g types d p ->
     let y k := if k <? gdim then p k else zero in In d l <-> f (y 0) (y 1) (y 2) = true) /\
  (forall d, (forall p, ~ has_point T zero add mul x_g types d p) -> In d l <-> d < num_dofs /\ f zero zero zero = true).
Proof.
  intros T zero add mul gdim x_g types ibs ni dbs sd bs s n marker_fn f Hg H1 H2 Es En Hf Ha Hp.
  destruct (tabulate_ok T zero add mul gdim x_g Hg true types s n Hf Ha ibs ni dbs sd bs H1 H2 Es En) as (x & -> & Lx & Hx).
  unfold locate_dofs. cbn [existsb orb obind]. destruct (marked_ok (marker_fn x)) as [S I]. eexists. split; [reflexivity|]. split; [exact S|].
  assert (Hi : forall d, In d (marked_indices (marker_fn x)) <-> d < n /\ f (nth (coord_at true n d 0) x zero) (nth (coord_at true n d 1) x zero) (nth (coord_at true n d 2) x zero) = true).
  { intro d. rewrite I, (pointwise_nth zero marker_fn f x n d Hp Lx). unfold coord_at. replace (0 * n + d) with d by lia. replace (1 * n + d) with (n + d) by lia. reflexivity. }
  split.
  - intros d p Hd. set (y := fun k => if k <? gdim then p k else zero). change (In d (marked_indices (marker_fn x)) <-> f (y 0) (y 1) (y 2) = true). pose proof (has_point_lt _ _ _ _ _ _ _ _ _ _ Hf Hd) as Hn.
    assert (E : forall k, k < 3 -> nth (coord_at true n d k) x zero = y k).
    { intros k Hk. apply nth_error_nth. destruct (Hx d k Hn Hk) as [Ha1 Ha2]. unfold y. destruct (Nat.ltb_spec k gdim) as [Hlt|Hge]; [apply Ha1; assumption|apply Ha2; now right]. }
    rewrite Hi, !E by lia. tauto.
  - intros d Hno. rewrite Hi. split; intros [Hd H]; (split; [exact Hd|]);
    assert (E : forall k, k < 3 -> nth (coord_at true n d k) x zero = zero) by (intros k Hk; apply nth_error_nth; apply (Hx d k Hd Hk); now left); rewrite !E in * by lia; exact H.
Qed.
Print Assumptions C83_located.

(** For two spaces: the pairs of unrolled dofs at the same position of a cell, where the dof of
    the second space is marked; sorted and without repetition *)
Theorem C83_pairs :
  forall T element_bs bs0 bs1 (x : list T) marker_fn ncells dofmap0 dofmap1, 0 < bs0 -> 0 < bs1 ->
  (forall c, c < ncells -> exists dofs0 dofs1, nth_error dofmap0 c = Some dofs0 /\ nth_error dofmap1 c = Some dofs1 /\
     bs0 * length dofs0 = element_bs * length dofs1 /\ bs1 * length dofs1 = element_bs * length dofs1 /\ forall d, In d dofs1 -> d < length (marker_fn x)) ->
  exists l0 l1, locate_dofs_pair T true true element_bs bs0 bs1 (Some x) marker_fn ncells dofmap0 dofmap1 = Some (l0, l1) /\
    length l0 = length l1 /\ StronglySorted pair_lt (combine l0 l1) /\
    forall a b, In (a, b) (combine l0 l1) <-> exists c i k dofs1 d, c < ncells /\ nth_error dofmap1 c = Some dofs1 /\ nth_error dofs1 i = Some d /\
      nth_error (marker_fn x) d = Some true /\ k < element_bs /\ cell_dof bs0 dofmap0 c (element_bs * i + k) = Some a /\ cell_dof bs1 dofmap1 c (element_bs * i + k) = Some b.
Proof. intro T. exact locate_pair_ok. Qed.
Print Assumptions C83_pairs.

(** Example: two triangles with quadratic elements on a square of side 2; the coordinates are
    twice those of the points, so that they are integers; the ninth dof is in no cell here. *)
Definition dc_quad : dof_cells Z :=
  mkDC Z true [[2; 0; 0]; [0; 2; 0]; [0; 0; 2]; [0; 1; 1]; [1; 0; 1]; [1; 1; 0]]%Z [[0; 1; 2]; [1; 3; 2]] 2 [[0; 1; 2; 3; 4; 5]; [1; 6; 2; 7; 3; 8]] (fun _ x => x).
Definition dc_geometry : list Z := [0; 0; 0; 2; 0; 0; 0; 2; 0; 2; 2; 0]%Z.
Lemma dc_fit : cells_fit Z dc_geometry 6 10 dc_quad.
Proof.
  split; [reflexivity|]. split; [reflexivity|]. split; [cbn; lia|]. exists 3. split; [intros row H; cbn in H; decompose [or] H; subst; try reflexivity; contradiction|].
  intros [|[|c]] Hc; cbn in Hc; try lia; eexists _, _; cbn [dc_quad dc_xd dc_dofs dc_phi nth_error]; (split; [reflexivity|]; split; [reflexivity|]; split; [reflexivity|]);
  (split; [intros v Hv; cbn in Hv; decompose [or] Hv; subst; cbn; try lia; contradiction|split; [reflexivity|intros d Hd; cbn in Hd; decompose [or] Hd; subst; try lia; contradiction]]).
Qed.
Definition dc_point (d : nat) : list Z := nth d [[0; 0]; [4; 0]; [0; 4]; [2; 2]; [0; 2]; [2; 0]; [4; 4]; [2; 4]; [4; 2]]%Z [].
Lemma dc_points d p : has_point Z 0%Z Z.add Z.mul dc_geometry [dc_quad] d p -> forall k, k < 2 -> p k = nth k (dc_point d) 0%Z.
Proof.
  intros (t & c & j & nodes & dofs & row & [<-|[]] & Hc & En & Ed & Ej & Er & Hp) k Hk. rewrite Hp. cbn [dc_quad dc_ncells dc_xd dc_dofs dc_phi] in *.
  destruct c as [|[|c]]; [| |lia]; cbn in En, Ed; injection En as <-; injection Ed as <-;
  (do 6 (destruct j as [|j]; [cbn in Ej, Er; injection Ej as <-; injection Er as <-; destruct k as [|[|k]]; [reflexivity|reflexivity|lia]|]); destruct j; discriminate Ej).
Qed.
Lemma dc_agree : points_agree Z 0%Z Z.add Z.mul 2 dc_geometry [dc_quad].
Proof. intros d p p' H H' k Hk. now rewrite (dc_points d p H k Hk), (dc_points d p' H' k Hk). Qed.
Example C83_coordinates_case :
  cells_fit Z dc_geometry 6 10 dc_quad /\ points_agree Z 0%Z Z.add Z.mul 2 dc_geometry [dc_quad] /\
  tabulate_dof_coordinates Z 0%Z Z.add Z.mul 2 dc_geometry false false false 1 10 1 6 1 [dc_quad] =
    Some (concat [[0; 0; 0]; [4; 0; 0]; [0; 4; 0]; [2; 2; 0]; [0; 2; 0]; [2; 0; 0]; [4; 4; 0]; [2; 4; 0]; [4; 2; 0]; [0; 0; 0]]%Z).
Proof. split; [exact dc_fit|]. split; [exact dc_agree|reflexivity]. Qed.
Definition on_left (x : list Z) : list bool := map (fun i => Z.eqb (nth i x 0%Z) 0) (seq 0 (length x / 3)).
Lemma on_left_pointwise : pointwise 0%Z on_left (fun a _ _ => Z.eqb a 0).
Proof. intros x n Lx. unfold on_left. rewrite Lx, Nat.mul_comm, Nat.div_mul by lia. reflexivity. Qed.
(** The dof that is in no cell is located at the origin. *)
Example C83_located_case : pointwise 0%Z on_left (fun a _ _ => Z.eqb a 0) /\
  locate_dofs Z [false] (tabulate_dof_coordinates Z 0%Z Z.add Z.mul 2 dc_geometry true false false 1 10 1 6 1 [dc_quad]) on_left = Some [0; 2; 4; 9].
Proof. split; [exact on_left_pointwise|reflexivity]. Qed.
(** The second component of a space with blocks of two (as a sub space its dofs are not blocked) and its collapsed space *)
Example C83_pairs_case :
  locate_dofs_pair nat true true 1 1 1 (Some []) (fun _ => [true; false; true; false]) 2 [[5; 3; 7]; [3; 7; 9]] [[1; 0; 2]; [0; 2; 3]] = Some ([3; 7], [0; 2]) /\
  locate_dofs_pair nat true true 2 1 2 (Some []) (fun _ => [true; false; true; false]) 2 [[5; 6; 3; 4; 7; 8]; [3; 4; 7; 8; 9; 10]] [[1; 0; 2]; [0; 2; 3]] = Some ([3; 4; 7; 8], [0; 1; 4; 5]).
Proof. split; reflexivity. Qed.

(** The work array has as many rows as the element of the first cell type has points: a second
    cell type with more points, here a quadrilateral after a triangle, writes outside of it;
    in the other order it does not. *)
Definition dc_tri : dof_cells Z := mkDC Z true [[1; 0; 0]; [0; 1; 0]; [0; 0; 1]]%Z [[0; 1; 2]] 1 [[0; 1; 2]] (fun _ x => x).
Definition dc_square : dof_cells Z := mkDC Z true [[1; 0; 0; 0]; [0; 1; 0; 0]; [0; 0; 1; 0]; [0; 0; 0; 1]]%Z [[0; 1; 2; 3]] 1 [[0; 1; 2; 3]] (fun _ x => x).
Theorem C83_mixed_refuted :
  tabulate_dof_coordinates Z 0%Z Z.add Z.mul 2 dc_geometry false false false 1 4 1 3 1 [dc_tri; dc_square] = None /\
  tabulate_dof_coordinates Z 0%Z Z.add Z.mul 2 dc_geometry false false false 1 4 1 4 1 [dc_square; dc_tri] = Some dc_geometry.
Proof. split; reflexivity. Qed.
Print Assumptions C83_mixed_refuted.
