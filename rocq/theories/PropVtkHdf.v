(** Properties C90 and C91: meshes and time steps in VTKHDF files. *)
From Coq Require Import Permutation.
From Verif Require Import Base BaseProofs Ranges CellTypes Cells CellsSpec Xdmf XdmfSpec XdmfProofs VtkHdf VtkHdfSpec VtkHdfTrip VtkHdfSteps.
Open Scope nat_scope.

(** A mesh with cells of several types that [P] processes write, in any order, is read by any number [Q] of processes.  All readers get the
    same kinds of cells, which are the types and degrees of the cells of the mesh, and for each kind the readers together get the
    cells of that type, in the order of the writers, with the nodes of each in the order that they had. *)
Theorem C90_cells : forall (U : Type) P Q size_local ghosts types num_cells dofmap order fill (fillx : nat -> U) x,
  0 < Q -> cells_fit P size_local ghosts types num_cells dofmap -> (forall i t nn, nth_error types i = Some (t, nn) -> exists d, readable t d nn) -> NoDup (map fst types) ->
  (exists r i, r < P /\ i < length types /\ 0 < num_cells r i) -> Permutation order (seq 0 P) -> fill 0 = 0 -> (forall r, r < P -> size_local r * 3 <= length (x r)) ->
  exists F kinds cells,
    write_mesh size_local (before size_local) ghosts types num_cells dofmap P order fill fillx x = Some F /\ NoDup kinds /\
    (forall q, q < Q -> read_cells Q F q = Some (kinds, cells q) /\ length (cells q) = length kinds) /\
    (forall t d, In (t, d) kinds <-> exists i nn r, nth_error types i = Some (t, nn) /\ readable t d nn /\ r < P /\ 0 < num_cells r i) /\
    (forall k i t d nn, nth_error kinds k = Some (t, d) -> nth_error types i = Some (t, nn) ->
       gathered Q (fun q => nth k (cells q) []) = gathered P (fun r => owned_cells size_local ghosts num_cells dofmap r i)).
Proof.
  intros U P Q size_local ghosts types num_cells dofmap order fill fillx x HQ Hfit Ht Hd Hs Ho Hf Hx.
  exact (mesh_round_trip P Q size_local (before size_local) ghosts types num_cells dofmap order fill fillx x HQ (fun r _ => eq_refl) Hfit Ht Hd Hs Ho Hf Hx).
Qed.
Print Assumptions C90_cells.

(** The readers together get the points that the processes own, in the order of their global indices. *)
Theorem C90_points : forall (U : Type) P Q size_local ghosts types num_cells dofmap order fill (fillx : nat -> U) x gdim F,
  0 < Q -> cells_fit P size_local ghosts types num_cells dofmap -> (forall i t nn, nth_error types i = Some (t, nn) -> exists d, readable t d nn) ->
  Permutation order (seq 0 P) -> fill 0 = 0 -> (forall r, r < P -> size_local r * 3 <= length (x r)) -> gdim <= 3 -> 0 < before size_local P ->
  write_mesh size_local (before size_local) ghosts types num_cells dofmap P order fill fillx x = Some F ->
  exists new, (forall q, q < Q -> read_points Q F (before size_local P) gdim q = Some (new q)) /\ gathered Q new = gathered P (owned_points gdim size_local x).
Proof.
  intros U P Q size_local ghosts types num_cells dofmap order fill fillx x gdim F HQ Hfit Ht Ho Hf Hx Hg HN E.
  exact (points_round_trip P Q size_local (before size_local) ghosts types num_cells dofmap order fill fillx x HQ (fun r _ => eq_refl) Hfit Ht F gdim Ho Hf Hx Hg HN E).
Qed.
Print Assumptions C90_points.

(** Two triangles and a quadrilateral on two processes; the quadrilateral is a ghost on the first one. *)
Definition ex_types : list (cell_type * nat) := [(Triangle, 3); (Quadrilateral, 4)].
Definition ex_local (r : nat) : nat := match r with 0 => 4 | _ => 2 end.
Definition ex_ghosts (r : nat) : list nat := match r with 0 => [4; 5] | _ => [1; 3] end.
Definition ex_cells (r i : nat) : nat := match r, i with 0, 0 => 2 | 1, 1 => 1 | _, _ => 0 end.
Definition ex_dofmap (r i : nat) : list (list nat) := match r, i with 0, 0 => [[0; 1; 2]; [1; 3; 2]] | 0, 1 => [[1; 4; 3; 5]] | 1, 1 => [[2; 0; 3; 1]] | _, _ => [] end.
Definition ex_x (r : nat) : list nat := match r with 0 => [0; 0; 9; 1; 0; 9; 0; 1; 9; 1; 1; 9; 2; 0; 9; 2; 1; 9] | _ => [2; 0; 9; 2; 1; 9; 1; 0; 9; 1; 1; 9] end.
Definition ex_file : vtk_file nat := mk_file [0; 0; 9; 1; 0; 9; 0; 1; 9; 1; 1; 9; 2; 0; 9; 2; 1; 9] [0; 3; 6; 10] [0; 1; 2; 1; 3; 2; 1; 4; 5; 3] [69; 69; 70].
Lemma ex_types_readable : forall i t nn, nth_error ex_types i = Some (t, nn) -> exists d, readable t d nn.
Proof.
  intros [|[|[|i]]] t nn E; try discriminate; injection E as <- <-; exists 1; (split; [constructor; reflexivity || exact (ln_quadrilateral 1)|]); (split; [lia|]; split; [lia|]; split; [discriminate|]; split; [intros [|]; discriminate|discriminate]).
Qed.
Example C90_cells_example :
  cells_fit 2 ex_local ex_ghosts ex_types ex_cells ex_dofmap /\ (forall i t nn, nth_error ex_types i = Some (t, nn) -> exists d, readable t d nn) /\ NoDup (map fst ex_types) /\
  Permutation [1; 0] (seq 0 2) /\ (forall r, r < 2 -> ex_local r * 3 <= length (ex_x r)) /\
  write_mesh ex_local (before ex_local) ex_ghosts ex_types ex_cells ex_dofmap 2 [1; 0] (fun _ => 0) (fun _ => 7) ex_x = Some ex_file /\
  map (read_cells 3 ex_file) [0; 1; 2] =
    [Some ([(Triangle, 1); (Quadrilateral, 1)], [[0; 1; 2]; []]); Some ([(Triangle, 1); (Quadrilateral, 1)], [[1; 3; 2]; []]); Some ([(Triangle, 1); (Quadrilateral, 1)], [[]; [1; 4; 3; 5]])] /\
  map (read_points 2 ex_file 6 2) [0; 1] = [Some [0; 0; 1; 0; 0; 1]; Some [1; 1; 2; 0; 2; 1]].
Proof.
  split; [|split; [exact ex_types_readable|split; [repeat constructor; cbn; intuition discriminate|split; [apply perm_swap|split; [intros [|[|r]] Hr; cbn; lia|split; [|split]; vm_compute; reflexivity]]]]].
  intros [|[|r]] [|[|[|i]]] t nn Hr E; try lia; try discriminate; injection E as <- <-; (split; [cbn; lia|]; split; [cbn; intro; reflexivity || lia|]);
    intros row H; cbn in H; repeat (destruct H as [<-|H]; [split; [reflexivity|cbn; intros n Hn; lia]|]); destruct H.
Qed.

(** A quadrilateral and a triangle on the first process, another triangle, that is a ghost of the first, on the second: the offsets
    that the first process writes count its ghost too, and the file cannot be read. *)
Theorem C90_ghosts_refuted : exists P size_local ghosts types num_cells dofmap (x : nat -> list nat) F,
  (forall r i t nn, r < P -> nth_error types i = Some (t, nn) -> num_cells r i <= length (dofmap r i) /\
     forall row, In row (dofmap r i) -> length row = nn /\ forall n, In n row -> n < size_local r + length (ghosts r)) /\
  (forall i t nn, nth_error types i = Some (t, nn) -> exists d, readable t d nn) /\ NoDup (map fst types) /\ (forall r, r < P -> size_local r * 3 <= length (x r)) /\
  write_mesh size_local (before size_local) ghosts types num_cells dofmap P (seq 0 P) (fun _ => 0) (fun _ => 0) x = Some F /\ read_cells 1 F 0 = None.
Proof.
  exists 2, ex_local, ex_ghosts, ex_types, (fun r i => match r, i with 0, _ => 1 | 1, 0 => 1 | _, _ => 0 end), (fun r i => match r, i with 0, 0 => [[0; 1; 2]; [1; 4; 3]] | 0, 1 => [[0; 1; 2; 3]] | _, 0 => [[2; 0; 3]] | _, _ => [] end), ex_x.
  eexists. split; [|split; [exact ex_types_readable|split; [repeat constructor; cbn; intuition discriminate|split; [intros [|[|r]] Hr; cbn; lia|split; [vm_compute; reflexivity|vm_compute; reflexivity]]]]].
  intros [|[|r]] [|[|[|i]]] t nn Hr E; try lia; try discriminate; injection E as <- <-; (split; [cbn; lia|]);
    intros row H; cbn in H; repeat (destruct H as [<-|H]; [split; [reflexivity|cbn; intros n Hn; lia]|]); destruct H.
Qed.
Print Assumptions C90_ghosts_refuted.

(** One cell with [n] nodes on one process *)
Definition one_cell (t : cell_type) (n : nat) : option (vtk_file nat) :=
  write_mesh (fun _ => n) (fun _ => 0) (fun _ => []) [(t, n)] (fun _ _ => 1) (fun _ _ => [seq 0 n]) 1 [0] (fun _ => 0) (fun _ => 0) (fun _ => repeat 0 (3 * n)).
(** Prisms of degree 2 and hexahedra with 20 nodes are written, but cannot be read; pyramids of degree 2 are read as pyramids of degree 1. *)
Theorem C90_degree_refuted :
  (exists F, lagrange_nodes Prism 2 18 /\ one_cell Prism 18 = Some F /\ read_cells 1 F 0 = None) /\
  (exists F, lagrange_nodes Hexahedron 2 20 /\ one_cell Hexahedron 20 = Some F /\ read_cells 1 F 0 = None) /\
  (exists F, lagrange_nodes Pyramid 2 14 /\ one_cell Pyramid 14 = Some F /\ read_cells 1 F 0 = Some ([(Pyramid, 1)], [seq 0 14])).
Proof.
  split; [|split]; eexists; (split; [first [exact ln_hexahedron_20 | apply ln_prism_2; right; reflexivity | apply ln_pyramid_2; right; reflexivity]|split; [vm_compute; reflexivity|vm_compute; reflexivity]]).
Qed.
Print Assumptions C90_degree_refuted.

(** ** Time steps *)
(** After any number of time steps, each written by the processes in any order, the file has their number and times, and the rows from the
    offset of a step on are the data of the processes at that step. *)
Theorem C91_steps : forall (U T : Type) P w owned (fill : nat -> U) (steps : list (T * list nat * (nat -> list U))),
  0 < P -> 0 < w -> (forall r, r < P -> 0 < owned r) -> steps <> [] ->
  (forall time order data, In (time, order, data) steps -> Permutation order (seq 0 P) /\ forall r, r < P -> length (data r) = owned r * w) ->
  exists f rows,
    ofold (fun f s => let '(time, order, data) := s in write_data P order fill owned data time f) steps (mk_steps U T None [] [] None) = Some f /\
    n_steps f = Some (length steps) /\ s_times f = map (fun s => fst (fst s)) steps /\ length (s_offsets f) = length steps /\
    s_data f = Some (w, rows) /\ length rows = length steps * before owned P * w /\
    forall k time order data, nth_error steps k = Some (time, order, data) ->
      exists offset, nth_error (s_offsets f) k = Some offset /\ firstn (before owned P * w) (skipn (offset * w) rows) = gathered P data.
Proof.
  intros U T P w owned fill steps HP Hw Hn Hs H.
  assert (Hok : forall s, In s steps -> step_ok P w owned s) by (intros [[time order] data] Hin; exact (H time order data Hin)).
  exists (after P w owned steps), (concat (map (fun s => gathered P (snd s)) steps)). split.
  - rewrite <- (steps_ok P w owned fill HP Hw Hn steps Hok). apply ofold_ext. intros f [[time order] data] Hin. reflexivity.
  - unfold after. cbn [n_steps s_times s_offsets s_data]. split; [destruct steps; [now destruct Hs|reflexivity]|]. split; [reflexivity|]. split; [now rewrite map_length, seq_length|]. split; [destruct steps; [now destruct Hs|reflexivity]|].
    split; [exact (rows_length P w owned HP Hw steps Hok)|]. intros k time order data E. exists (k * before owned P).
    split; [rewrite nth_error_map, nth_error_seq by exact (nth_error_bound _ _ _ E); reflexivity|].
    apply nth_error_split in E as (l1 & l2 & E & <-). assert (H1 : forall s, In s l1 -> step_ok P w owned s) by (intros; apply Hok; rewrite E; apply in_or_app; now left).
    assert (H2 : step_ok P w owned (time, order, data)) by (apply Hok; rewrite E; apply in_or_app; right; now left). rewrite E, map_app, concat_app. cbn [map concat snd]. rewrite <- (rows_length P w owned HP Hw l1 H1).
    rewrite skipn_app, skipn_all, Nat.sub_diag. cbn [skipn app]. pose proof (gathered_length P w owned data (proj2 H2)) as L. rewrite <- L by lia. rewrite firstn_app, firstn_all, Nat.sub_diag. cbn [firstn]. apply app_nil_r.
Qed.
Print Assumptions C91_steps.
Example C91_steps_example :
  let data (c r : nat) := match r with 0 => [c; c + 1] | _ => [c + 2; c + 3; c + 4; c + 5] end in
  let owned (r : nat) := match r with 0 => 1 | _ => 2 end in
  Permutation [1; 0] (seq 0 2) /\ (forall c r, r < 2 -> length (data c r) = owned r * 2) /\
  ofold (fun f s => let '(time, order, data) := s in write_data 2 order (fun _ => 7) owned data time f) [(0, [0; 1], data 10); (5, [1; 0], data 20)] (mk_steps nat nat None [] [] None)
    = Some (mk_steps nat nat (Some 2) [0; 3] [0; 5] (Some (2, [10; 11; 12; 13; 14; 15; 20; 21; 22; 23; 24; 25]))).
Proof. split; [apply perm_swap|]. split; [intros c [|[|r]] Hr; try lia; reflexivity|vm_compute; reflexivity]. Qed.

(** A process that owns no points divides by zero. *)
Theorem C91_empty_process_refuted : exists P w owned (data : nat -> list nat), 0 < P /\ 0 < w /\ 0 < before owned P /\ (forall r, r < P -> length (data r) = owned r * w) /\
  write_data P (seq 0 P) (fun _ => 0) owned data 0 (mk_steps nat nat None [] [] None) = None.
Proof.
  exists 2, 1, (fun r => match r with 0 => 1 | _ => 0 end), (fun r => match r with 0 => [5] | _ => [] end).
  split; [lia|]. split; [lia|]. split; [cbn; lia|]. split; [intros [|[|r]] Hr; try lia; reflexivity|vm_compute; reflexivity].
Qed.
Print Assumptions C91_empty_process_refuted.
