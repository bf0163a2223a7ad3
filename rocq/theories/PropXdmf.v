(** Properties C86 and C87: what is written to XDMF files is what is read. *)
From Coq Require Import Permutation Sorted.
From Verif Require Import Base CellTypes Cells CellsSpec Xdmf XdmfSpec XdmfData.
Open Scope nat_scope.

(** A mesh that [P] processes write, in any order, is read by any number [Q] of processes: cell [c] of process [r] is
    row [c] after the cells of the processes before, its nodes are in the order that they had, and the coordinates of
    each node are those that [r] has for it, also if it is a ghost.  In one dimension a zero is added. *)
Theorem C86_mesh : forall (U : Type) (zero : U) P Q order fill fillx size_local ghosts x_dofmap num_cells t deg nn gdim x,
  0 < Q -> Permutation order (seq 0 P) -> 1 <= gdim <= 3 -> 0 < nn -> lagrange_nodes t deg (Z.of_nat nn) -> (1 <= deg)%Z -> (Z.of_nat nn <= 65536)%Z ->
  0 < before num_cells P -> 0 < before size_local P ->
  (forall r c, r < P -> c < num_cells r -> nodes_fit size_local ghosts x nn (fun r c => nth_error (x_dofmap r) c) r c) ->
  (forall r, r < P -> length (x r) = 3 * (size_local r + length (ghosts r))) -> ghosts_agree P size_local ghosts x ->
  let width := if gdim =? 1 then 2 else gdim in
  exists FT FX T G,
    add_topology_data size_local (before size_local) ghosts P order fill (entity_nodes x_dofmap true (fun _ => []) (fun _ => []) []) t nn (fun r => seq 0 (num_cells r)) = Some FT /\
    add_geometry_data size_local zero P order fillx (before size_local P) gdim x = Some FX /\
    (forall q, q < Q -> read_topology_data t q Q (before num_cells P) nn FT = Some (T q)) /\
    (forall q, q < Q -> read_geometry_data q Q (before size_local P) width FX = Some (G q)) /\
    length (gathered Q T) = before num_cells P * nn /\ length (gathered Q G) = before size_local P * width /\
    (forall r i k, r < P -> i < size_local r -> k < width -> nth_error (gathered Q G) ((before size_local r + i) * width + k) = coordinate zero gdim (x r) i k) /\
    forall r c nodes i n, r < P -> c < num_cells r -> nth_error (x_dofmap r) c = Some nodes -> nth_error nodes i = Some n ->
      exists g, global_node size_local ghosts r n g /\ nth_error (gathered Q T) ((before num_cells r + c) * nn + i) = Some g /\
        forall k, k < width -> nth_error (gathered Q G) (g * width + k) = coordinate zero gdim (x r) n k.
Proof. exact @mesh_statement. Qed.
Print Assumptions C86_mesh.

(** Two triangles with six nodes on two processes, written by the second process first and read by three *)
Definition ex_local (r : nat) : nat := match r with 0 => 6 | _ => 3 end.
Definition ex_ghosts (r : nat) : list nat := match r with 0 => [] | _ => [1; 2; 3] end.
Definition ex_dofmap (r : nat) : list (list nat) := match r with 0 => [[0; 1; 2; 3; 4; 5]] | _ => [[3; 4; 0; 1; 2; 5]] end.
Definition ex_x (r : nat) : list nat :=
  match r with 0 => [0; 0; 9; 2; 0; 9; 0; 2; 9; 1; 1; 9; 0; 1; 9; 1; 0; 9] | _ => [2; 2; 9; 1; 2; 9; 2; 1; 9; 2; 0; 9; 0; 2; 9; 1; 1; 9] end.
Example C86_mesh_example :
  Permutation [1; 0] (seq 0 2) /\ lagrange_nodes Triangle 2 6 /\
  (forall r c, r < 2 -> c < 1 -> nodes_fit ex_local ex_ghosts ex_x 6 (fun r c => nth_error (ex_dofmap r) c) r c) /\
  (forall r, r < 2 -> length (ex_x r) = 3 * (ex_local r + length (ex_ghosts r))) /\ ghosts_agree 2 ex_local ex_ghosts ex_x /\
  add_topology_data ex_local (before ex_local) ex_ghosts 2 [1; 0] (fun _ => 7) (entity_nodes ex_dofmap true (fun _ => []) (fun _ => []) []) Triangle 6 (fun _ => seq 0 1)
    = Some [0; 1; 2; 5; 3; 4;  1; 2; 6; 3; 7; 8] /\
  map (fun q => read_topology_data Triangle q 3 2 6 [0; 1; 2; 5; 3; 4;  1; 2; 6; 3; 7; 8]) [0; 1; 2] = [Some [0; 1; 2; 3; 4; 5]; Some [1; 2; 6; 7; 8; 3]; Some []] /\
  add_geometry_data ex_local 0 2 [1; 0] (fun _ => 7) 9 2 ex_x = Some [0; 0; 2; 0; 0; 2; 1; 1; 0; 1; 1; 0; 2; 2; 1; 2; 2; 1].
Proof.
  split; [apply perm_swap|]. split; [constructor; reflexivity|]. split; [|split; [|split; [|repeat split; vm_compute; reflexivity]]].
  - intros [|[|r]] [|c] Hr Hc; try lia; (split; [reflexivity|]; eexists; split; [reflexivity|]; split; [reflexivity|]; cbn; intros n H; lia).
  - intros [|[|r]] Hr; try lia; reflexivity.
  - intros [|[|r]] i g Hr E; try lia; [destruct i; discriminate|]. destruct i as [|[|[|i]]]; cbn in E; try (destruct i; discriminate); injection E as <-.
    + exists 0, 1. cbn [ex_local]. repeat (split; [cbn; lia|]). intros [|[|[|k]]] Hk; try lia; reflexivity.
    + exists 0, 2. cbn [ex_local]. repeat (split; [cbn; lia|]). intros [|[|[|k]]] Hk; try lia; reflexivity.
    + exists 0, 3. cbn [ex_local]. repeat (split; [cbn; lia|]). intros [|[|[|k]]] Hk; try lia; reflexivity.
Qed.

(** The tags of entities that the processes own are read by any number of processes: the rows and the values are in
    the order of the processes and of their tags; the row of an entity has the nodes of the closure of the entity, and
    each process reads as many values as rows. *)
Theorem C86_meshtags : forall (V : Type) P Q order fill (fillv : nat -> V) size_local ghosts x_dofmap e_to_c c_to_e entity_dofs t deg nn num_owned indices values,
  0 < Q -> Permutation order (seq 0 P) -> 0 < nn -> lagrange_nodes t deg (Z.of_nat nn) -> (1 <= deg)%Z -> (Z.of_nat nn <= 65536)%Z ->
  let N := before (fun r => tagged (num_owned r) (indices r)) in
  0 < N P ->
  (forall r, r < P -> StronglySorted lt (indices r) /\ length (values r) = length (indices r)) ->
  (forall r e, r < P -> In e (indices r) -> e < num_owned r -> exists ns, closure_nodes (e_to_c r) (c_to_e r) entity_dofs (x_dofmap r) e ns /\
     length ns = nn /\ forall n, In n ns -> n < size_local r + length (ghosts r)) ->
  exists FT FV T v,
    add_meshtags size_local (before size_local) ghosts P order fill fillv (entity_nodes x_dofmap false e_to_c c_to_e entity_dofs) t nn num_owned indices values = Some (FT, FV) /\
    (forall q, q < Q -> read_topology_data t q Q (N P) nn FT = Some (T q)) /\
    (forall q, q < Q -> get_dataset q Q [N P; 1] [N P; 1] FV = Some (v q)) /\
    length (gathered Q T) = N P * nn /\ length (gathered Q v) = N P /\
    (forall q, q < Q -> length (T q) = length (v q) * nn) /\
    forall r j e ns, r < P -> nth_error (indices r) j = Some e -> e < num_owned r -> closure_nodes (e_to_c r) (c_to_e r) entity_dofs (x_dofmap r) e ns ->
      nth_error (gathered Q v) (N r + j) = nth_error (values r) j /\
      forall i n, nth_error ns i = Some n -> exists g, global_node size_local ghosts r n g /\ nth_error (gathered Q T) ((N r + j) * nn + i) = Some g.
Proof. exact @meshtags_statement. Qed.
Print Assumptions C86_meshtags.

(** Facets of the two triangles: the facet 0 of the first process, the facet 1 of the second, which does not own its
    facet 2. *)
Definition ex_ftoc (_ : nat) : list (list nat) := [[0]; [0]; [0]].
Definition ex_ctof (_ : nat) : list (list nat) := [[0; 1; 2]].
Definition ex_facet_dofs : list (list nat) := [[1; 2; 3]; [0; 2; 4]; [0; 1; 5]].
Definition ex_owned (r : nat) : nat := match r with 0 => 3 | _ => 2 end.
Definition ex_tagged (r : nat) : list nat := match r with 0 => [0] | _ => [1; 2] end.
Definition ex_values (r : nat) : list nat := match r with 0 => [40] | _ => [50; 60] end.
Example C86_meshtags_example :
  lagrange_nodes Interval 2 3 /\ before (fun r => tagged (ex_owned r) (ex_tagged r)) 2 = 2 /\
  (forall r, r < 2 -> StronglySorted lt (ex_tagged r) /\ length (ex_values r) = length (ex_tagged r)) /\
  (forall r e, r < 2 -> In e (ex_tagged r) -> e < ex_owned r -> exists ns, closure_nodes (ex_ftoc r) (ex_ctof r) ex_facet_dofs (ex_dofmap r) e ns /\
     length ns = 3 /\ forall n, In n ns -> n < ex_local r + length (ex_ghosts r)) /\
  add_meshtags ex_local (before ex_local) ex_ghosts 2 [1; 0] (fun _ => 7) (fun _ => 7) (entity_nodes ex_dofmap false ex_ftoc ex_ctof ex_facet_dofs) Interval 3 ex_owned ex_tagged ex_values
    = Some ([1; 2; 3;  1; 6; 8], [40; 50]) /\
  get_dataset 0 2 [2; 1] [2; 1] [40; 50] = Some [40] /\ get_dataset 1 2 [2; 1] [2; 1] [40; 50] = Some [50].
Proof.
  split; [constructor; reflexivity|]. split; [reflexivity|]. split; [|split; [|repeat split; vm_compute; reflexivity]].
  - intros [|[|r]] Hr; try lia; (split; [repeat constructor|reflexivity]).
  - assert (Hnd : NoDup [0; 1; 2]) by (repeat constructor; cbn; lia).
    intros [|[|r]] e Hr He Ho; try lia; cbn in He, Ho.
    + assert (e = 0) as -> by lia. exists [1; 2; 3]. split; [|split; [reflexivity|cbn; lia]]. exists 0, [], [0; 1; 2], 0, [1; 2; 3], [0; 1; 2; 3; 4; 5].
      repeat (split; [reflexivity || exact Hnd|]). intros [|[|[|i]]] d E; try (destruct i; discriminate); injection E as <-; (split; [cbn; lia|reflexivity]).
    + assert (e = 1) as -> by lia. exists [3; 0; 2]. split; [|split; [reflexivity|cbn; lia]]. exists 0, [], [0; 1; 2], 1, [0; 2; 4], [3; 4; 0; 1; 2; 5].
      repeat (split; [reflexivity || exact Hnd|]). intros [|[|[|i]]] d E; try (destruct i; discriminate); injection E as <-; (split; [cbn; lia|reflexivity]).
Qed.

(** Flat data with a shape of two or more rows in the XML file, which the code means to support, is never read. *)
Theorem C86_flat_refuted : forall (A : Type) rank size N k (F : list A), 2 <= N -> 1 <= k -> get_dataset rank size [N; k] [N * k] F = None.
Proof. exact @flat_statement. Qed.
Print Assumptions C86_flat_refuted.
Example C86_flat_example : get_dataset 0 1 [2; 3] [6] [1; 2; 3; 4; 5; 6] = None /\ get_dataset 0 1 [2; 3] [2; 3] [1; 2; 3; 4; 5; 6] = Some [1; 2; 3; 4; 5; 6].
Proof. split; vm_compute; reflexivity. Qed.

(** A function with the dofs of the geometry is written with a row for each node, in the global order of the nodes:
    the row has the values of the function at the dof where a cell has the node, and then zeros. *)
Theorem C87_points : forall (T : Type) (zero : T) P order fill bs rank size_local num_cells dofmap dofmap_x (x : nat -> list T), Permutation order (seq 0 P) ->
  (forall r, r < P -> function_fits bs (num_cells r) (dofmap r) (dofmap_x r) (x r)) ->
  (forall r d d' n, r < P -> n < size_local r -> dof_at_node (num_cells r) (dofmap r) (dofmap_x r) d n -> dof_at_node (num_cells r) (dofmap r) (dofmap_x r) d' n -> d = d') ->
  let ncomp := padded_components rank bs in
  exists F, add_function P order fill (before size_local P) ncomp (fun r => point_values zero bs ncomp (num_cells r) (size_local r) (dofmap r) (dofmap_x r) (x r)) = Some F /\
    length F = before size_local P * ncomp /\
    (forall r d n j, r < P -> n < size_local r -> dof_at_node (num_cells r) (dofmap r) (dofmap_x r) d n -> j < ncomp -> nth_error F ((before size_local r + n) * ncomp + j) = dof_value zero bs (x r) d j) /\
    (forall r n j, r < P -> n < size_local r -> (forall d, ~ dof_at_node (num_cells r) (dofmap r) (dofmap_x r) d n) -> j < ncomp -> nth_error F ((before size_local r + n) * ncomp + j) = Some zero).
Proof. exact @point_function. Qed.
Print Assumptions C87_points.

(** Two intervals on one process with two components; the dofs are not numbered as the nodes. *)
Example C87_points_example :
  function_fits 2 2 [[2; 0]; [0; 1]] [[0; 1]; [1; 2]] [10; 11; 20; 21; 30; 31] /\
  (forall d d' n, n < 3 -> dof_at_node 2 [[2; 0]; [0; 1]] [[0; 1]; [1; 2]] d n -> dof_at_node 2 [[2; 0]; [0; 1]] [[0; 1]; [1; 2]] d' n -> d = d') /\
  padded_components 1 2 = 3 /\
  add_function 1 [0] (fun _ => 7) 3 3 (fun _ => point_values 0 2 3 2 3 [[2; 0]; [0; 1]] [[0; 1]; [1; 2]] [10; 11; 20; 21; 30; 31]) = Some [30; 31; 0; 10; 11; 0; 20; 21; 0].
Proof.
  split; [|split; [|split; vm_compute; reflexivity]].
  - intros [|[|c]] Hc; try lia; (do 2 eexists; split; [reflexivity|]; split; [reflexivity|]; split; [reflexivity|]; cbn; intros d H; lia).
  - assert (H : forall d n, dof_at_node 2 [[2; 0]; [0; 1]] [[0; 1]; [1; 2]] d n -> d = nth n [2; 0; 1] 0).
    { intros d n (c & i & dofs & nodes & Hc & E1 & E2 & E3 & E4). destruct c as [|[|c]]; [| |lia]; injection E1 as <-; injection E2 as <-; destruct i as [|[|i]]; cbn in E3, E4; try (destruct i; discriminate); injection E3 as <-; injection E4 as <-; reflexivity. }
    intros d d' n _ H1 H2. now rewrite (H d n H1), (H d' n H2).
Qed.

(** A function with one dof in each cell is written with a row for each cell, in the global order of the cells. *)
Theorem C87_cells : forall (T : Type) (zero : T) P order fill bs rank num_cells dofmap (x : nat -> list T), Permutation order (seq 0 P) ->
  (forall r c, r < P -> c < num_cells r -> exists d, nth_error (dofmap r) c = Some [d] /\ bs * d + bs <= length (x r)) ->
  let ncomp := padded_components rank bs in
  exists F, add_function P order fill (before num_cells P) ncomp (fun r => cell_values zero bs ncomp (num_cells r) (dofmap r) (x r)) = Some F /\
    length F = before num_cells P * ncomp /\
    forall r c d j, r < P -> c < num_cells r -> nth_error (dofmap r) c = Some [d] -> j < ncomp -> nth_error F ((before num_cells r + c) * ncomp + j) = dof_value zero bs (x r) d j.
Proof. exact @cell_function. Qed.
Print Assumptions C87_cells.
Example C87_cells_example :
  (forall c, c < 2 -> exists d, nth_error [[1]; [0]] c = Some [d] /\ 1 * d + 1 <= length [5; 6]) /\
  add_function 2 [1; 0] (fun _ => 7) 4 1 (fun r => cell_values 0 1 1 2 [[1]; [0]] [5 + 10 * r; 6 + 10 * r]) = Some [6; 5; 16; 15].
Proof. split; [|vm_compute; reflexivity]. intros [|[|c]] Hc; try lia; eexists; (split; [reflexivity|cbn; lia]). Qed.

(** The row of a tensor in two dimensions is not the tensor in three dimensions with zeros: the components are padded
    at the end, so that component (1, 0) is at the position of (0, 2). *)
Theorem C87_tensor_refuted : exists x row : list nat,
  cell_values 0 4 (padded_components 2 4) 1 [[0]] x = Some row /\
  ~ (forall i j, i < 2 -> j < 2 -> nth_error row (3 * i + j) = nth_error x (2 * i + j)).
Proof.
  exists [1; 2; 3; 4], [1; 2; 3; 4; 0; 0; 0; 0; 0]. split; [vm_compute; reflexivity|]. intro H. specialize (H 1 0 ltac:(lia) ltac:(lia)). discriminate.
Qed.
Print Assumptions C87_tensor_refuted.
