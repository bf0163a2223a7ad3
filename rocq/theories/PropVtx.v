(** Property C92: what VTX files hold. *)
From Verif Require Import Base BaseProofs CellTypes Cells CellsSpec DofCoords DofCoordsSpec PropDofCoords Vtx VtxSpec VtxProofs.
From Coq Require Import ZArith.
Open Scope nat_scope.

(** The mesh made from a Lagrange space: the points are those of the dofs, with the global indices of the dofs and with flags for ghosts; the
    cells are the rows of the dof map, where node [i] of a cell is at the position that VTK has for it. *)
Theorem C92_space : forall T (zero : T) add mul gdim x_g V range0 size_local ghosts bs space_dimension block_size t deg nn,
  gdim <= 3 -> 0 < bs -> 0 < block_size -> nn = space_dimension / block_size ->
  cells_fit T x_g nn (size_local + length ghosts) V -> length (dc_phi T V) = nn -> points_agree T zero add mul gdim x_g [V] ->
  lagrange_nodes t deg (Z.of_nat nn) -> (1 <= deg)%Z -> (Z.of_nat nn <= 65536)%Z ->
  exists x ids ghost cells p,
    vtx_mesh_from_space T zero add mul gdim x_g false bs range0 size_local ghosts bs space_dimension block_size t V = Some (x, ids, ghost, cells) /\
    perm_vtk t (Z.of_nat nn) = Some p /\ is_permutation p (Z.of_nat nn) /\ packed_cells (dc_ncells T V) nn p (dc_dofs T V) cells /\
    length x = 3 * (size_local + length ghosts) /\ length ids = size_local + length ghosts /\ length ghost = size_local + length ghosts /\
    forall d, d < size_local + length ghosts ->
      (exists g, nth_error ids d = Some g /\ has_global range0 size_local ghosts d g) /\ nth_error ghost d = Some (size_local <=? d) /\
      forall k, k < 3 ->
        (forall pt, has_point T zero add mul x_g [V] d pt -> k < gdim -> nth_error x (3 * d + k) = Some (pt k)) /\
        ((forall pt, ~ has_point T zero add mul x_g [V] d pt) \/ gdim <= k -> nth_error x (3 * d + k) = Some zero).
Proof.
  intros T zero add mul gdim x_g V range0 size_local ghosts bs sd b t deg nn Hg Hbs Hb Hnn Hfit Hphi Ha Hl Hd Hn.
  exact (vtx_space_ok T zero add mul gdim x_g V range0 size_local ghosts bs sd b t deg nn Hg Hbs Hb Hnn Hfit Hphi Ha Hl Hd Hn).
Qed.
Print Assumptions C92_space.
(** The two quadratic triangles of C83: nine owned dofs and a ghost.  VTK has the nodes of the edges in another order. *)
Example C92_space_example :
  cells_fit Z dc_geometry 6 (9 + length [42]) dc_quad /\ points_agree Z 0%Z Z.add Z.mul 2 dc_geometry [dc_quad] /\ lagrange_nodes Triangle 2 6 /\
  vtx_mesh_from_space Z 0%Z Z.add Z.mul 2 dc_geometry false 1 20 9 [42] 1 6 1 Triangle dc_quad =
    Some ([0; 0; 0; 4; 0; 0; 0; 4; 0; 2; 2; 0; 0; 2; 0; 2; 0; 0; 4; 4; 0; 2; 4; 0; 4; 2; 0; 0; 0; 0]%Z, [20; 21; 22; 23; 24; 25; 26; 27; 28; 42],
          [false; false; false; false; false; false; false; false; false; true], [6; 0; 1; 2; 5; 3; 4; 6; 1; 6; 2; 8; 7; 3]).
Proof. split; [exact dc_fit|]. split; [exact dc_agree|]. split; [constructor; reflexivity|]. vm_compute. reflexivity. Qed.

(** The cells of a mesh are the rows of the geometry dof map in the order of VTK, with flags for the ghosts. *)
Theorem C92_mesh : forall size_local num_ghosts t deg nn dofmap_x,
  lagrange_nodes t deg (Z.of_nat nn) -> (1 <= deg)%Z -> (Z.of_nat nn <= 65536)%Z -> (forall row, In row dofmap_x -> length row = nn) ->
  exists ghost cells p, vtx_mesh size_local num_ghosts t nn dofmap_x = Some (ghost, cells) /\ perm_vtk t (Z.of_nat nn) = Some p /\ is_permutation p (Z.of_nat nn) /\
    packed_cells (length dofmap_x) nn p dofmap_x cells /\ length ghost = size_local + num_ghosts /\ forall d, d < size_local + num_ghosts -> nth_error ghost d = Some (size_local <=? d).
Proof. exact vtx_mesh_ok. Qed.
Print Assumptions C92_mesh.
Example C92_mesh_example :
  lagrange_nodes Quadrilateral 1 4 /\ vtx_mesh 3 3 Quadrilateral 4 [[0; 1; 2; 3]; [2; 3; 4; 5]] = Some ([false; false; false; true; true; true], [4; 0; 1; 3; 2; 4; 2; 3; 5; 4]).
Proof. split; [exact (ln_quadrilateral 1)|vm_compute; reflexivity]. Qed.

(** The values of a function: those of each dof, in the order of the points, and zeros. *)
Theorem C92_values : forall T (zero : T) bs num_indices value_shape u,
  0 < bs -> bs <= padded_width value_shape -> length u = bs * num_indices ->
  exists data, vtx_data T zero bs num_indices bs value_shape u = Some data /\ length data = num_indices * padded_width value_shape /\
  forall d j, d < num_indices -> j < padded_width value_shape ->
    nth_error data (d * padded_width value_shape + j) = if j <? bs then nth_error u (d * bs + j) else Some zero.
Proof. intros T zero bs n shape u. rewrite <- num_components_ok. apply vtx_data_ok. Qed.
Print Assumptions C92_values.
Example C92_values_example :
  2 <= padded_width [2] /\ padded_width [4] = 4 /\ vtx_data nat 0 4 2 4 [4] [1; 2; 3; 4; 5; 6; 7; 8] = Some [1; 2; 3; 4; 5; 6; 7; 8] /\ vtx_data nat 0 2 3 2 [2] [1; 2; 3; 4; 5; 6] = Some [1; 2; 0; 3; 4; 0; 5; 6; 0] /\ vtx_data nat 0 1 3 1 [] [1; 2; 3] = Some [1; 2; 3].
Proof. split; [cbn; lia|]. split; [reflexivity|]. split; [reflexivity|]. split; reflexivity. Qed.

(** A two by two tensor is not written as the upper left part of a three by three tensor, and of a symmetric three by three
    tensor, with six numbers for each dof, the last entry of the diagonal is lost. *)
Theorem C92_tensors_refuted :
  (exists u data, vtx_data nat 0 4 1 4 [2; 2] u = Some data /\ length data = 9 /\ exists a b, a < 2 /\ b < 2 /\ nth_error data (3 * a + b) <> nth_error u (2 * a + b)) /\
  (forall u data, length u = 6 -> vtx_data nat 0 6 1 6 [3; 3] u = Some data -> nth_error data (3 * 2 + 2) = Some 0).
Proof.
  split.
  - exists [1; 2; 3; 4], [1; 2; 3; 4; 0; 0; 0; 0; 0]. split; [vm_compute; reflexivity|]. split; [reflexivity|]. exists 1, 0. split; [lia|]. split; [lia|]. discriminate.
  - intros u data L E. destruct (vtx_data_ok nat 0 6 1 [3; 3] u) as (data' & E' & _ & H); [lia|cbn; lia|cbn; lia|]. rewrite E in E'. injection E' as <-. change (3 * 2 + 2) with (0 * num_components [3; 3] + 8). rewrite H by (cbn; lia). reflexivity.
Qed.
Print Assumptions C92_tensors_refuted.
