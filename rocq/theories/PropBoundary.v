(** Property C65: boundary vertices and reordered cells in create_mesh. *)
From Verif Require Import Base Nbx World WorldProofs IndexMap IndexMapSpec CellTypes DualGraph DualGraphSpec DualGraphExtra TopoCreate TopoCreateSpec BoundaryVerts BoundarySpec BoundaryMain BoundaryWorld BoundaryCheck.
From Coq Require Import Relation_Operators.
Open Scope nat_scope.

(** One cell type: for every order of threads and messages, every reordering and every maximum
    number of cells of a facet, the boundary vertices are those of the facets that fewer than
    the maximum of owned cells have, sorted, each once.  Nodes, vertices and original indices of
    the owned cells move to the same new places; ghosts stay. *)
Theorem C65_single :
  forall sched tsort reorder_fn max threads ts num_dofs n nodes cells original ghosts,
    (forall t j l, t < length ts -> Permutation (sched t j l) l) ->
    (forall t, t < length ts -> sorts_facets (tsort t)) ->
    (forall offsets data, Permutation (reorder_fn offsets data) (seq 0 (length offsets - 1))) ->
    0 < threads ->
    cells_input ts num_dofs n nodes cells original ghosts ->
    length ts = 1 ->
    exists boundary bs,
      boundary_vertices sched tsort reorder_fn max threads ts num_dofs (blocks_of (length ts) ghosts nodes cells original) = Some (boundary, bs) /\
      (exists nodes' cells' original' sigma, bs = blocks_of (length ts) ghosts nodes' cells' original' /\
         forall t, t < length ts -> Permutation (sigma t) (seq 0 (n t)) /\
           cells_reordered (num_dofs t) (n t) (sigma t) (nodes t) (nodes' t) /\
           cells_reordered (nverts ts t) (n t) (sigma t) (cells t) (cells' t) /\
           cells_reordered 1 (n t) (sigma t) (original t) (original' t)) /\
      StronglySorted Z.lt boundary /\
      forall v, In v boundary <-> exists id vs, rank_facet ts (owned ts n cells) id vs /\ In v vs /\
        match max with None => True | Some m => fewer_than ts (owned ts n cells) m vs end.
Proof. exact single_ok. Qed.
Print Assumptions C65_single.

(** Several cell types, with facets in at most two cells of the rank: the boundary vertices are
    those of the facets that one owned cell has. *)
Theorem C65_several :
  forall sched tsort reorder_fn max threads ts num_dofs n nodes cells original ghosts,
    (forall t j l, t < length ts -> Permutation (sched t j l) l) ->
    (forall t, t < length ts -> sorts_facets (tsort t)) ->
    (forall offsets data, Permutation (reorder_fn offsets data) (seq 0 (length offsets - 1))) ->
    0 < threads ->
    cells_input ts num_dofs n nodes cells original ghosts ->
    2 <= length ts ->
    match max with None => True | Some m => 2 <= m end ->
    at_most_two ts (owned ts n cells) -> no_part ts (owned ts n cells) ->
    exists boundary bs,
      boundary_vertices sched tsort reorder_fn max threads ts num_dofs (blocks_of (length ts) ghosts nodes cells original) = Some (boundary, bs) /\
      (exists nodes' cells' original' sigma, bs = blocks_of (length ts) ghosts nodes' cells' original' /\
         forall t, t < length ts -> Permutation (sigma t) (seq 0 (n t)) /\
           cells_reordered (num_dofs t) (n t) (sigma t) (nodes t) (nodes' t) /\
           cells_reordered (nverts ts t) (n t) (sigma t) (cells t) (cells' t) /\
           cells_reordered 1 (n t) (sigma t) (original t) (original' t)) /\
      StronglySorted Z.lt boundary /\
      forall v, In v boundary <-> exists id vs, rank_facet ts (owned ts n cells) id vs /\ In v vs /\ only ts (owned ts n cells) id vs.
Proof. exact several_types_ok. Qed.
Print Assumptions C65_several.

(** All ranks: if all cells around a vertex are connected through facets with that vertex, then
    no vertex that ranks share is missed, and create_topology with the reordered cells and
    these boundary vertices returns a consistent topology on every rank. *)
Theorem C65_topology :
  forall P ts num_dofs n nodes cells original owners sched tsort reorder_fn max threads nbx pcx nbxc nbxv pick,
    0 < P -> 0 < length ts ->
    nbx_oracle P nbx -> nbx_oracle P pcx -> nbx_oracle P nbxc -> nbx_oracle P nbxv -> (forall r i m, 1 < m -> pick r i m < m) ->
    (forall r t j l, r < P -> t < length ts -> Permutation (sched r t j l) l) ->
    (forall r t, r < P -> t < length ts -> sorts_facets (tsort r t)) ->
    (forall r offsets data, r < P -> Permutation (reorder_fn r offsets data) (seq 0 (length offsets - 1))) ->
    (forall r, r < P -> 0 < threads r) ->
    (forall r, r < P -> cells_input ts num_dofs (fun t => n t r) (fun t => nodes t r) (fun t => cells t r) (fun t => original t r) (fun t => length (owners t r))) ->
    (forall t r v, t < length ts -> r < P -> In v (cells t r) -> (v < 2 ^ 31)%Z) ->
    distributed_cells P (length ts) (nverts ts) n cells original owners ->
    let own := fun r => owned ts (fun t => n t r) (fun t => cells t r) in
    facet_connected P ts own ->
    match max with Some m => facets_shared_by P ts own m | None => True end ->
    (2 <= length ts -> match max with Some m => 2 <= m | None => True end /\ facets_shared_by P ts own 2 /\ forall r, r < P -> no_part ts (own r)) ->
    exists boundary nodes' cells' original' sigma num vmap cmap conn,
      (forall r, r < P ->
         boundary_vertices (sched r) (tsort r) (reorder_fn r) max (threads r) ts num_dofs
           (blocks_of (length ts) (fun t => length (owners t r)) (fun t => nodes t r) (fun t => cells t r) (fun t => original t r)) =
           Some (boundary r, blocks_of (length ts) (fun t => length (owners t r)) (fun t => nodes' t r) (fun t => cells' t r) (fun t => original' t r)) /\
         create_topology P nbx pcx nbxc nbxv pick threads (length ts) (nverts ts) cells' original' owners boundary r =
           Some (vmap r, map (fun t => (cmap t r, map Some (conn t r))) (seq 0 (length ts)))) /\
      (forall t r, t < length ts -> r < P -> Permutation (sigma t r) (seq 0 (n t r)) /\
         cells_reordered (num_dofs t) (n t r) (sigma t r) (nodes t r) (nodes' t r) /\
         cells_reordered (nverts ts t) (n t r) (sigma t r) (cells t r) (cells' t r) /\
         cells_reordered 1 (n t r) (sigma t r) (original t r) (original' t r)) /\
      topology_result P (length ts) (nverts ts) n cells' original' num vmap cmap conn.
Proof. exact boundary_topology_ok. Qed.
Print Assumptions C65_topology.

(** A triangle, a quadrilateral, a triangle and a quadrilateral in a row, two on each of two
    ranks; rank 0 has a ghost triangle and rank 1 a ghost quadrilateral. *)
Definition ex_ts := [Triangle; Quadrilateral].
Definition ex_n (t r : nat) : nat := 1.
Definition ex_cells (t r : nat) : list Z :=
  match t, r with
  | 0, 0 => [0; 1; 2; 3; 4; 5]%Z
  | 0, 1 => [3; 4; 5]%Z
  | 1, 0 => [1; 2; 3; 4]%Z
  | 1, 1 => [5; 4; 6; 7; 1; 2; 3; 4]%Z
  | _, _ => []
  end.
Definition ex_orig (t r : nat) : list Z :=
  match t, r with 0, 0 => [7; 5]%Z | 0, 1 => [5]%Z | 1, 0 => [0]%Z | 1, 1 => [1; 0]%Z | _, _ => [] end.
Definition ex_owners (t r : nat) : list nat := match t, r with 0, 0 => [1] | 1, 1 => [0] | _, _ => [] end.
Definition ex_own (r : nat) := owned ex_ts (fun t => ex_n t r) (fun t => ex_cells t r).
Definition rev_fn (offsets data : list nat) : list nat := rev (seq 0 (length offsets - 1)).
Definition run (ts : list cell_type) (cells orig : nat -> nat -> list Z) (owners : nat -> nat -> list nat) (max : option nat) (r : nat) :=
  boundary_vertices (fun _ _ l => rev l) (fun _ => lex_sort) rev_fn max 2 ts (nverts ts)
    (blocks_of (length ts) (fun t => length (owners t r)) (fun t => cells t r) (fun t => cells t r) (fun t => orig t r)).

Example C65_example :
  (forall r t j l, r < 2 -> t < 2 -> Permutation ((fun (_ _ _ : nat) (l : list (nat * frow)) => rev l) r t j l) l) /\
  sorts_facets lex_sort /\
  (forall offsets data, Permutation (rev_fn offsets data) (seq 0 (length offsets - 1))) /\
  (forall r, r < 2 -> cells_input ex_ts (nverts ex_ts) (fun t => ex_n t r) (fun t => ex_cells t r) (fun t => ex_cells t r) (fun t => ex_orig t r) (fun t => length (ex_owners t r))) /\
  distributed_cells 2 2 (nverts ex_ts) ex_n ex_cells ex_orig ex_owners /\
  facet_connected 2 ex_ts ex_own /\
  facets_shared_by 2 ex_ts ex_own 2 /\
  (forall r, r < 2 -> at_most_two ex_ts (ex_own r) /\ no_part ex_ts (ex_own r)) /\
  map (run ex_ts ex_cells ex_orig ex_owners (Some 2)) [0; 1] =
  [Some ([0; 1; 2; 3; 4]%Z, [mkBlock [0; 1; 2; 3; 4; 5]%Z [0; 1; 2; 3; 4; 5]%Z [7; 5]%Z 1; mkBlock [1; 2; 3; 4]%Z [1; 2; 3; 4]%Z [0]%Z 0]);
   Some ([3; 4; 5; 6; 7]%Z, [mkBlock [3; 4; 5]%Z [3; 4; 5]%Z [5]%Z 0; mkBlock [5; 4; 6; 7; 1; 2; 3; 4]%Z [5; 4; 6; 7; 1; 2; 3; 4]%Z [1; 0]%Z 1])].
Proof.
  assert (S2 : facets_shared_by 2 ex_ts ex_own 2) by (apply check_shared; vm_compute; reflexivity).
  split; [intros; symmetry; apply Permutation_rev|]. split; [exact lex_sort_ok|]. split; [intros; symmetry; apply Permutation_rev|].
  split; [|split; [|split; [|split; [|split]]]].
  - intros r Hr. constructor.
    + intros c [<-|[<-|[]]]; cbn; lia.
    + intros [|[|t]] Ht; cbn in Ht; try lia; destruct r as [|[|r]]; try lia; reflexivity.
    + intros [|[|t]] Ht; cbn in Ht; try lia; destruct r as [|[|r]]; try lia; reflexivity.
    + intros [|[|t]] Ht; cbn in Ht; try lia; destruct r as [|[|r]]; try lia; reflexivity.
    + intros [|[|t]] v Ht Hv; cbn in Ht; try lia; destruct r as [|[|r]]; try lia; cbn in Hv; repeat destruct Hv as [<-|Hv]; try contradiction; lia.
    + vm_compute. reflexivity.
  - constructor.
    + intros [|[|t]] [|[|r]] Ht Hr; try lia; cbn [ex_orig]; repeat first [apply NoDup_nil | apply NoDup_cons; [cbn; lia|]].
    + intros t r s [|c] [|d] g Ht Hr Hs Hc Hd H1 H2; unfold ex_n in *; try lia. destruct t as [|[|t]], r as [|[|r]], s as [|[|s]]; try lia; cbn in H1, H2; congruence.
    + intros t r k o g Ht Hr Ho Hg. destruct t as [|[|t]], r as [|[|r]]; try lia; (destruct k as [|k]; [|destruct k; discriminate]); try discriminate; cbn in Ho, Hg;
        injection Ho as <-; injection Hg as <-; (split; [lia|]); (split; [lia|]).
      * exists 0. split; [unfold ex_n; lia|]. split; [reflexivity|]. intros [|[|[|j]]] Hj; cbn in Hj; try lia; reflexivity.
      * exists 0. split; [unfold ex_n; lia|]. split; [reflexivity|]. intros [|[|[|[|j]]]] Hj; cbn in Hj; try lia; reflexivity.
  - apply check_connected. vm_compute. reflexivity.
  - exact S2.
  - intros r Hr. split; [apply (two_on_rank 2 ex_ts ex_own r S2 Hr)|]. apply (check_no_part 2 ex_ts ex_own r Hr). vm_compute. reflexivity.
  - vm_compute. reflexivity.
Qed.

(** One type, with reversed cells: vertex 0 inside a closed fan of triangles is not on the
    boundary if facets have at most two cells, but it is if they may have three. *)
Example C65_single_example :
  run [Triangle] (fun _ _ => [0; 1; 2; 2; 1; 3]%Z) (fun _ _ => [8; 9]%Z) (fun _ _ => []) (Some 2) 0 =
    Some ([0; 1; 2; 3]%Z, [mkBlock [2; 1; 3; 0; 1; 2]%Z [2; 1; 3; 0; 1; 2]%Z [9; 8]%Z 0]) /\
  run [Triangle] (fun _ _ => [0; 1; 2; 0; 2; 3; 0; 3; 1]%Z) (fun _ _ => [7; 8; 9]%Z) (fun _ _ => []) (Some 2) 0 =
    Some ([1; 2; 3]%Z, [mkBlock [0; 3; 1; 0; 2; 3; 0; 1; 2]%Z [0; 3; 1; 0; 2; 3; 0; 1; 2]%Z [9; 8; 7]%Z 0]) /\
  option_map fst (run [Triangle] (fun _ _ => [0; 1; 2; 0; 2; 3; 0; 3; 1]%Z) (fun _ _ => [7; 8; 9]%Z) (fun _ _ => []) (Some 3) 0) =
    Some [0; 1; 2; 3]%Z.
Proof. split; [|split]; vm_compute; reflexivity. Qed.

(** Without the condition on the cells around a vertex the claim fails: two closed fans of
    triangles, on two ranks, meet in vertex 0 only.  Both ranks own cells with the vertex, but
    it is on no boundary (all facets with it are in two cells of the rank), and create_topology
    gives it two global numbers: 8 vertices instead of 7. *)
Definition fan_cells (t r : nat) : list Z := match r with 0 => [0; 1; 2; 0; 2; 3; 0; 3; 1]%Z | _ => [0; 4; 5; 0; 5; 6; 0; 6; 4]%Z end.
Definition fan_orig (t r : nat) : list Z := match r with 0 => [0; 1; 2]%Z | _ => [3; 4; 5]%Z end.
Theorem C65_pinched_refuted :
  (forall r, r < 2 -> cells_input [Triangle] (fun _ => 3) (fun _ => 3) (fun t => fan_cells t r) (fun t => fan_cells t r) (fun t => fan_orig t r) (fun _ => 0)) /\
  distributed_cells 2 1 (nverts [Triangle]) (fun _ _ => 3) fan_cells fan_orig (fun _ _ => []) /\
  facets_shared_by 2 [Triangle] (fun r => owned [Triangle] (fun _ => 3) (fun t => fan_cells t r)) 2 /\
  (forall r, r < 2 -> has_owned_vertex 1 (nverts [Triangle]) (fun _ _ => 3) fan_cells r 0%Z) /\
  map (fun r => option_map fst (run [Triangle] fan_cells fan_orig (fun _ _ => []) (Some 2) r)) [0; 1] = [Some [1; 2; 3]%Z; Some [4; 5; 6]%Z] /\
  option_map (fun res => im_size_global (fst res))
    (create_topology 2 (senders 2) (senders 2) (senders 2) (senders 2) (fun _ _ _ => 0) (fun _ => 1) 1 (fun _ => 3)
       fan_cells fan_orig (fun _ _ => []) (fun r => match r with 0 => [1; 2; 3]%Z | _ => [4; 5; 6]%Z end) 0) = Some 8.
Proof.
  split; [|split; [|split; [|split; [|split]]]].
  - intros r Hr. constructor.
    + intros c [<-|[]]; cbn; lia.
    + intros t Ht. destruct r as [|[|r]]; reflexivity.
    + intros t Ht. cbn in Ht. assert (t = 0) by lia. subst t. destruct r as [|[|r]]; reflexivity.
    + intros t Ht. destruct r as [|[|r]]; reflexivity.
    + intros t v Ht Hv; destruct r as [|[|r]]; try lia; cbn in Hv; repeat destruct Hv as [<-|Hv]; try contradiction; lia.
    + vm_compute. reflexivity.
  - constructor.
    + intros t [|[|r]] Ht Hr; try lia; cbn [fan_orig]; repeat first [apply NoDup_nil | apply NoDup_cons; [cbn; lia|]].
    + intros t r s c d g Ht Hr Hs Hc Hd H1 H2. destruct r as [|[|r]], s as [|[|s]]; try lia; destruct c as [|[|[|c]]]; try lia; destruct d as [|[|[|d]]]; try lia; cbn in H1, H2; congruence.
    + intros t r [|k] o g _ _ Ho; discriminate.
  - apply check_shared. vm_compute. reflexivity.
  - intros r Hr. exists 0, 0, 0. destruct r as [|[|r]]; try lia; repeat split; cbn; lia.
  - vm_compute. reflexivity.
  - vm_compute. reflexivity.
Qed.
Print Assumptions C65_pinched_refuted.

(** Several types: a mesh with an edge in three cells (two triangles and one quadrilateral) is
    rejected, although three cells may share a facet; with triangles only it is accepted. *)
Theorem C65_joint_refuted :
  run [Triangle; Quadrilateral] (fun t _ => match t with 0 => [0; 1; 2; 0; 1; 3]%Z | _ => [0; 1; 4; 5]%Z end)
      (fun t _ => match t with 0 => [0; 1]%Z | _ => [0]%Z end) (fun _ _ => []) (Some 3) 0 = None /\
  option_map fst (run [Triangle] (fun _ _ => [0; 1; 2; 0; 1; 3; 0; 1; 4]%Z) (fun _ _ => [0; 1; 2]%Z) (fun _ _ => []) (Some 3) 0) = Some [0; 1; 2; 3; 4]%Z.
Proof. split; vm_compute; reflexivity. Qed.
Print Assumptions C65_joint_refuted.

(** Several types and facets with a part of the vertices of others: facets are compared on the
    vertices of the first one only, so the facets (0, 1, 2) of a tetrahedron and (0, 1, 2, 4) of
    a hexahedron are taken for one facet, and their vertices are not on the boundary. *)
Theorem C65_part_refuted :
  boundary_several [([[0; 1; 2]]%Z, 3); ([[0; 1; 2; 4]]%Z, 4)] = Some [].
Proof. vm_compute. reflexivity. Qed.
Print Assumptions C65_part_refuted.
