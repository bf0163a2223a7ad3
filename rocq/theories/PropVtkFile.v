(** Property C93: the values of functions in VTK files. *)
From Verif Require Import Base BaseProofs Vtx VtxSpec VtxProofs VtkFile VtkFileSpec VtkFileProofs.
Open Scope nat_scope.

(** A function that is constant on cells: each cell has its values, filled up with zeros. *)
Theorem C93_cells : forall T (zero : T) num_cells n bs value_shape dofmap u,
  bs <= padded_width value_shape -> length u = bs * n -> (forall c, c < num_cells -> exists d, nth_error dofmap c = Some [d] /\ d < n) ->
  exists data, vtk_cell_data T zero num_cells bs value_shape dofmap u = Some data /\ length data = num_cells * padded_width value_shape /\
  forall c d, c < num_cells -> node dofmap c 0 d -> row_holds zero (padded_width value_shape) bs u data c d.
Proof. intros T zero num_cells n bs shape dofmap u. rewrite <- num_components_ok. apply cell_data_ok. Qed.
Print Assumptions C93_cells.
Example C93_cells_example :
  (forall c, c < 3 -> exists d, nth_error [[2]; [0]; [1]] c = Some [d] /\ d < 3) /\
  vtk_cell_data nat 0 3 2 [2] [[2]; [0]; [1]] [1; 2; 3; 4; 5; 6] = Some [5; 6; 0; 1; 2; 0; 3; 4; 0].
Proof. split; [|reflexivity]. intros [|[|[|c]]] H; [exists 2|exists 0|exists 1|lia]; (split; [reflexivity|lia]). Qed.

(** Values at points.  The full property has neither of the last two conditions: on meshes of dimension three no zeros are needed, and on others
    the function is in the space that the points are made from.  Both are needed (below). *)
Theorem C93_points_partial : forall T (zero : T) gdim same_space num_cells n bs value_shape dofmap0 dofmap u,
  0 < bs -> bs <= padded_width value_shape -> length u = bs * n -> same_nodes num_cells n dofmap0 dofmap -> (same_space = true -> dofmap = dofmap0) ->
  (gdim = 3 -> padded_width value_shape = bs) -> (gdim <> 3 -> same_space = true) ->
  exists data, vtk_point_data T zero gdim same_space true num_cells bs n bs value_shape dofmap0 dofmap u = Some data /\ length data = n * padded_width value_shape /\
  point_values zero num_cells (padded_width value_shape) bs dofmap0 dofmap u data.
Proof. intros T zero gdim same_space num_cells n bs shape dofmap0 dofmap u. rewrite <- num_components_ok. apply point_data_ok. Qed.
Print Assumptions C93_points_partial.
(** Two intervals; the second space has its dofs in another order. *)
Lemma two_intervals : same_nodes 2 3 [[0; 1]; [1; 2]] [[2; 0]; [0; 1]].
Proof.
  split; [|split].
  - intros [|[|c]] H; [| |lia]; eexists; eexists; (split; [reflexivity|]); (split; reflexivity).
  - intros [|[|[|c]]] [|[|[|i]]] d0 d (r & E & I) (r' & E' & I'); cbn in *; try discriminate; injection E as <-; injection E' as <-; cbn in *; try discriminate; injection I as <-; injection I' as <-; lia.
  - intros [|[|[|c]]] [|[|[|c']]] [|[|[|i]]] [|[|[|i']]] d0 d d' (r0 & E0 & I0) (r1 & E1 & I1) (r2 & E2 & I2) (r3 & E3 & I3); cbn in *; try discriminate;
      injection E0 as <-; injection E1 as <-; injection E2 as <-; injection E3 as <-; cbn in *; congruence.
Qed.
Example C93_points_example :
  same_nodes 2 3 [[0; 1]; [1; 2]] [[2; 0]; [0; 1]] /\ padded_width [3] = 3 /\
  vtk_point_data nat 0 3 false true 2 3 3 3 [3] [[0; 1]; [1; 2]] [[2; 0]; [0; 1]] [1; 2; 3; 4; 5; 6; 7; 8; 9] = Some [7; 8; 9; 1; 2; 3; 4; 5; 6] /\
  vtk_point_data nat 0 2 true true 2 2 3 2 [2] [[0; 1]; [1; 2]] [[0; 1]; [1; 2]] [1; 2; 3; 4; 5; 6] = Some [1; 2; 0; 3; 4; 0; 5; 6; 0].
Proof. split; [exact two_intervals|]. split; [reflexivity|]. split; reflexivity. Qed.

(** On a mesh that is not of dimension three, the values of a function whose space has another dof map than the first are written at the wrong points:
    they were put in order but the others are written. *)
Theorem C93_order_refuted : exists num_cells n dofmap0 dofmap u data, same_nodes num_cells n dofmap0 dofmap /\ length u = n /\
  vtk_point_data nat 0 2 false true num_cells 1 n 1 [] dofmap0 dofmap u = Some data /\ ~ point_values 0 num_cells 1 1 dofmap0 dofmap u data.
Proof.
  exists 2, 3, [[0; 1]; [1; 2]], [[2; 0]; [0; 1]], [5; 6; 7], [5; 6; 7]. split; [exact two_intervals|]. split; [reflexivity|]. split; [reflexivity|].
  intro H. specialize (H 0 0 0 2 ltac:(lia) ltac:(exists [0; 1]; split; reflexivity) ltac:(exists [2; 0]; split; reflexivity) 0 ltac:(lia)). discriminate H.
Qed.
Print Assumptions C93_order_refuted.

(** On a mesh of dimension three, functions with two components are written without zeros, but as having three. *)
Theorem C93_padding_refuted : forall T (zero : T) num_cells n dofmap (u : list T), 0 < n -> length u = 2 * n -> exists data,
  vtk_point_data T zero 3 true true num_cells 2 n 2 [2] dofmap dofmap u = Some data /\ padded_width [2] = 3 /\ length data < n * padded_width [2].
Proof. intros T zero num_cells n dofmap u Hn Lu. exists u. split; [reflexivity|]. split; [reflexivity|]. change (padded_width [2]) with 3. lia. Qed.
Print Assumptions C93_padding_refuted.
