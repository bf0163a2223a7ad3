(** C60: the dual graph of a distributed mesh. *)
From Verif Require Import Base Algo Nbx World CellTypes PostOffice DualGraph DualGraphSpec DualGraphProofs DualGraphExtra.
Open Scope nat_scope.

(** A mesh over several ranks, any number of threads on each: row c of the graph returned on
    rank r lists, in increasing order and once each, the cells (global numbers) that share a
    facet with cell c of rank r. [sched] is the order in which the threads of a rank store
    the facets, [tsort] the parallel sort, [nbx] the consensus exchange. *)
Theorem C60_dual_graph :
  forall P nbx sched tsort ts arrs max threads,
    1 < P -> nbx_oracle P nbx ->
    (forall q, q < P -> input_ok (ts q) (arrs q)) ->
    (forall q j l, q < P -> Permutation (sched q j l) l) ->
    (forall q, q < P -> sorts_facets (tsort q)) ->
    (forall q, q < P -> 0 < threads q) ->
    (N.of_nat (lsum (map (fun q => num_facets (ts q) (arrs q)) (seq 0 P))) < 2 ^ 63)%N ->
    match max with None => True | Some m => shared_by_at_most P ts arrs m end ->
    forall r, r < P ->
    exists rows,
      build_dual_graph P nbx sched tsort ts arrs max threads r =
        Some (psums (map (@length nat) rows), concat rows) /\
      length rows = num_cells (ts r) (arrs r) /\
      forall c row, nth_error rows c = Some row ->
        StronglySorted lt row /\
        forall d, In d row <-> adjacent P ts arrs (first_cell ts arrs r + c) d.
Proof. exact parallel_ok. Qed.
Print Assumptions C60_dual_graph.

(** Rank 0: triangles; rank 1: nothing; rank 2: a triangle and a quadrilateral. *)
Definition ex_types (r : nat) : list cell_type := match r with 0 => [Triangle] | 1 => [] | _ => [Triangle; Quadrilateral] end.
Definition ex_cells (r : nat) : list (list Z) :=
  match r with 0 => [[0; 1; 2; 1; 2; 3]%Z] | 1 => [] | _ => [[4; 3; 1]%Z; [2; 3; 5; 6]%Z] end.

Example C60_dual_graph_example :
  nbx_oracle 3 (senders 3) /\
  (forall q, q < 3 -> input_ok (ex_types q) (ex_cells q)) /\
  (forall (q j : nat) (l : list (nat * frow)), q < 3 -> Permutation (rev l) l) /\
  sorts_facets lex_sort /\
  (N.of_nat (lsum (map (fun q => num_facets (ex_types q) (ex_cells q)) (seq 0 3))) < 2 ^ 63)%N /\
  shared_by_at_most 3 ex_types ex_cells 2 /\
  map (build_dual_graph 3 (senders 3) (fun _ _ l => rev l) (fun _ => lex_sort) ex_types ex_cells (Some 2) (fun _ => 3)) [0; 1; 2] =
    [Some ([0; 1; 4], [1; 0; 2; 3]); Some ([0], []); Some ([0; 1; 2], [1; 1])].
Proof.
  split; [intros d r _; reflexivity|]. split; [|split; [|split; [|split; [|split]]]].
  - intros q Hq. destruct q as [|[|[|q]]]; [| | |lia]; (split; [reflexivity|]; split; [exists 2; split; [lia|]; repeat constructor|]; repeat (constructor; [repeat constructor; lia|]); constructor).
  - intros q j l _. symmetry. apply Permutation_rev.
  - exact lex_sort_ok.
  - vm_compute. reflexivity.
  - apply check_shared_ok. vm_compute. reflexivity.
  - vm_compute. reflexivity.
Qed.

(** The graph does not depend on the threads, nor on the order of messages. *)
Theorem C60_threads :
  forall P ts arrs max,
    1 < P ->
    (forall q, q < P -> input_ok (ts q) (arrs q)) ->
    (N.of_nat (lsum (map (fun q => num_facets (ts q) (arrs q)) (seq 0 P))) < 2 ^ 63)%N ->
    match max with None => True | Some m => shared_by_at_most P ts arrs m end ->
    forall nbx sched tsort threads nbx' sched' tsort' threads',
    nbx_oracle P nbx -> nbx_oracle P nbx' ->
    (forall q j l, q < P -> Permutation (sched q j l) l) ->
    (forall q j l, q < P -> Permutation (sched' q j l) l) ->
    (forall q, q < P -> sorts_facets (tsort q)) ->
    (forall q, q < P -> sorts_facets (tsort' q)) ->
    (forall q, q < P -> 0 < threads q) ->
    (forall q, q < P -> 0 < threads' q) ->
    forall r, r < P ->
      build_dual_graph P nbx sched tsort ts arrs max threads r =
      build_dual_graph P nbx' sched' tsort' ts arrs max threads' r.
Proof. exact threads_ok. Qed.
Print Assumptions C60_threads.

Example C60_threads_example :
  build_dual_graph 3 (senders 3) (fun _ _ l => l) (fun _ => lex_sort) ex_types ex_cells None (fun q => 2 + q) 0 =
  Some ([0; 1; 4], [1; 0; 2; 3]).
Proof. vm_compute. reflexivity. Qed.

(** The graph is symmetric, across ranks too. *)
Theorem C60_symmetric :
  forall P ts arrs max,
    1 < P ->
    (forall q, q < P -> input_ok (ts q) (arrs q)) ->
    (N.of_nat (lsum (map (fun q => num_facets (ts q) (arrs q)) (seq 0 P))) < 2 ^ 63)%N ->
    match max with None => True | Some m => shared_by_at_most P ts arrs m end ->
    forall nbx sched tsort threads,
    nbx_oracle P nbx ->
    (forall q j l, q < P -> Permutation (sched q j l) l) ->
    (forall q, q < P -> sorts_facets (tsort q)) ->
    (forall q, q < P -> 0 < threads q) ->
    exists rows : nat -> list (list nat),
      (forall r, r < P -> build_dual_graph P nbx sched tsort ts arrs max threads r =
                          Some (psums (map (@length nat) (rows r)), concat (rows r))) /\
      forall r s c d row row', r < P -> s < P ->
        nth_error (rows r) c = Some row -> nth_error (rows s) d = Some row' ->
        (In (first_cell ts arrs s + d) row <-> In (first_cell ts arrs r + c) row').
Proof. exact symmetric_ok. Qed.
Print Assumptions C60_symmetric.

(** Cell 1 of rank 0 and cell 0 of rank 2 (global numbers 1 and 2) in the mesh above. *)
Example C60_symmetric_example :
  first_cell ex_types ex_cells 0 + 1 = 1 /\ first_cell ex_types ex_cells 2 + 0 = 2 /\
  In 2 [0; 2; 3] /\ In 1 [1].
Proof. split; [reflexivity|]. split; [reflexivity|]. split; cbn; auto. Qed.

(** The graph of the cells of one rank and the facets it may share with other ranks. *)
Theorem C60_local :
  forall sched tsort ts arrs max threads,
    input_ok ts arrs ->
    (forall j l, Permutation (sched j l) l) ->
    sorts_facets tsort ->
    0 < threads ->
    (N.of_nat (num_facets ts arrs) < 2 ^ 63)%N ->
    exists ld rows,
      build_local_dual_graph sched tsort ts arrs max threads = Some ld /\
      ld_offsets ld = psums (map (@length nat) rows) /\
      ld_data ld = concat rows /\
      length rows = num_cells ts arrs /\
      (forall c row, nth_error rows c = Some row -> neighbours ts arrs c row) /\
      unmatched_facets ts arrs max (ld_width ld) (ld_facets ld) (ld_cells ld).
Proof. exact local_graph_ok. Qed.
Print Assumptions C60_local.

Example C60_local_example :
  build_local_dual_graph (fun _ l => l) lex_sort [Triangle; Quadrilateral] [[0; 1; 2; 1; 2; 3]; [2; 3; 5; 6]]%Z (Some 2) 2 =
  Some (mkLD [0; 1; 3; 4] [1; 0; 2; 1] [[0; 1]; [0; 2]; [1; 3]; [2; 5]; [3; 6]; [5; 6]]%Z 2 [0; 0; 1; 2; 2; 2]).
Proof. vm_compute. reflexivity. Qed.

(** One process: the same rows, not sorted and with one entry for each common facet. *)
Theorem C60_one_process :
  forall nbx sched tsort ts arrs max threads,
    input_ok (ts 0) (arrs 0) ->
    (forall j l, Permutation (sched 0 j l) l) ->
    sorts_facets (tsort 0) ->
    0 < threads 0 ->
    (N.of_nat (num_facets (ts 0%nat) (arrs 0%nat)) < 2 ^ 63)%N ->
    exists rows,
      build_dual_graph 1 nbx sched tsort ts arrs max threads 0 =
        Some (psums (map (@length nat) rows), concat rows) /\
      length rows = num_cells (ts 0) (arrs 0) /\
      forall c row, nth_error rows c = Some row -> neighbours (ts 0) (arrs 0) c row.
Proof. exact serial_ok. Qed.
Print Assumptions C60_one_process.

Example C60_one_process_example :
  input_ok [Triangle; Quadrilateral] [[0; 1; 2; 1; 2; 3]; [2; 3; 5; 6]]%Z /\
  build_dual_graph 1 (senders 1) (fun _ _ l => l) (fun _ => lex_sort) (fun _ => [Triangle; Quadrilateral])
    (fun _ => [[0; 1; 2; 1; 2; 3]; [2; 3; 5; 6]]%Z) (Some 2) (fun _ => 2) 0 = Some ([0; 1; 3; 4], [1; 0; 2; 1]).
Proof.
  split; [|vm_compute; reflexivity]. split; [reflexivity|]. split; [exists 2; split; [lia|]; repeat constructor|]. repeat (constructor; [repeat constructor; lia|]). constructor.
Qed.

(** So the graph depends on the number of processes: two cells that share two facets are two
    neighbours on one process, one neighbour on two. *)
Definition loop_one (_ : nat) : list (list Z) := [[0; 1; 1; 0]%Z].
Definition loop_two (r : nat) : list (list Z) := match r with 0 => [[0; 1]%Z] | _ => [[1; 0]%Z] end.
Theorem C60_number_of_processes_refuted :
  (forall q, q < 2 -> input_ok [Interval] (loop_two q)) /\ input_ok [Interval] (loop_one 0) /\
  concat (loop_one 0) = concat (loop_two 0) ++ concat (loop_two 1) /\
  build_dual_graph 1 (senders 1) (fun _ _ l => l) (fun _ => lex_sort) (fun _ => [Interval]) loop_one (Some 2) (fun _ => 2) 0 =
    Some ([0; 2; 4], [1; 1; 0; 0]) /\
  map (build_dual_graph 2 (senders 2) (fun _ _ l => l) (fun _ => lex_sort) (fun _ => [Interval]) loop_two (Some 2) (fun _ => 2)) [0; 1] =
    [Some ([0; 1], [1]); Some ([0; 1], [0])].
Proof.
  assert (G : forall a, Forall (fun v => (0 <= v < 2 ^ 63 - 1)%Z) a -> input_ok [Interval] [a]).
  { intros a H. split; [reflexivity|]. split; [exists 1; split; [lia|repeat constructor]|]. constructor; [exact H|constructor]. }
  split; [intros q Hq; destruct q; apply G; repeat constructor; lia|]. split; [apply G; repeat constructor; lia|]. split; [reflexivity|]. split; vm_compute; reflexivity.
Qed.
Print Assumptions C60_number_of_processes_refuted.

(** A facet of more cells than [max] is missed when one rank has [max] of them: three
    intervals meet in vertex 1, two of them on rank 0. Without the bound they are found. *)
Definition joint (r : nat) : list (list Z) := match r with 0 => [[0; 1; 1; 2]%Z] | _ => [[1; 3]%Z] end.
Theorem C60_joint_refuted :
  (forall q, q < 2 -> input_ok [Interval] (joint q)) /\
  adjacent 2 (fun _ => [Interval]) joint 0 2 /\
  map (build_dual_graph 2 (senders 2) (fun _ _ l => l) (fun _ => lex_sort) (fun _ => [Interval]) joint (Some 2) (fun _ => 2)) [0; 1] =
    [Some ([0; 1; 2], [1; 0]); Some ([0; 0], [])] /\
  map (build_dual_graph 2 (senders 2) (fun _ _ l => l) (fun _ => lex_sort) (fun _ => [Interval]) joint None (fun _ => 2)) [0; 1] =
    [Some ([0; 2; 4], [1; 2; 0; 2]); Some ([0; 2], [0; 1])].
Proof.
  assert (G : forall a, Forall (fun v => (0 <= v < 2 ^ 63 - 1)%Z) a -> input_ok [Interval] [a]).
  { intros a H. split; [reflexivity|]. split; [exists 1; split; [lia|repeat constructor]|]. constructor; [exact H|constructor]. }
  split; [intros q Hq; destruct q; apply G; repeat constructor; lia|]. split; [|split; vm_compute; reflexivity].
  exists 1, 0, [1%Z], [1%Z]. split; [discriminate|]. split; [|split; [|reflexivity]].
  - exists 0, 0. split; [lia|]. split; [reflexivity|]. apply (HasFacet [Interval] (joint 0) 0 Interval [0; 1; 1; 2]%Z 0 1 [1]); [reflexivity|reflexivity|vm_compute; lia|reflexivity].
  - exists 1, 0. split; [lia|]. split; [reflexivity|]. apply (HasFacet [Interval] (joint 1) 0 Interval [1; 3]%Z 0 0 [0]); [reflexivity|reflexivity|vm_compute; lia|reflexivity].
Qed.
Print Assumptions C60_joint_refuted.

(** No thread, or cells without a type for each array, is an error. *)
Theorem C60_rejects :
  forall sched tsort ts arrs max threads,
    threads = 0 \/ (exists a, In a arrs /\ a <> [] /\ length ts <> length arrs) ->
    build_local_dual_graph sched tsort ts arrs max threads = None.
Proof. exact rejects_ok. Qed.
Print Assumptions C60_rejects.

Example C60_rejects_example :
  build_local_dual_graph (fun _ l => l) lex_sort [Triangle] [[0; 1; 2]; [2; 3; 5; 6]]%Z (Some 2) 2 = None.
Proof. vm_compute. reflexivity. Qed.
