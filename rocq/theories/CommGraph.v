(** Model of the communication graph of an index map. *)
From Verif Require Import Base Algo IndexMap AdjList Plaza.

Section CommGraph.
(** [node r] is the shared-memory node that rank [r] runs on: what
    [MPI_Comm_split_type] with [MPI_COMM_TYPE_SHARED] splits by. *)
Variables (P : nat) (maps : nat -> imap) (node : nat -> nat).

(** IndexMap.cpp:1380-1408.  Key 0 for all ranks keeps their order in the split communicator.
    The assertions that the results are sorted are left out. *)
Definition rank_type (r : nat) : list nat * list nat :=
  let ranks_s := filter (fun q => node q =? node r) (seq 0 P) in
  (set_intersection (im_dest (maps r)) ranks_s, set_intersection (im_src (maps r)) ranks_s).

(** utils.cpp:83-91 *)
Definition markers (r : nat) : list nat :=
  let local_dest := fst (rank_type r) in
  map (fun q => match find_sorted local_dest q with Some _ => 1 | None => 0 end) (im_dest (maps r)).

(** [MPI_Gatherv] on the receiving rank: the lists of all ranks one after another.  [None] if
    a rank sends another number of items than is expected from it. *)
Definition gatherv {A} (counts : list nat) (data : list (list A)) : option (list A) :=
  if forallb (fun cd => fst cd =? length (snd cd)) (combine counts data) then Some (concat data) else None.

(** utils.cpp:19-104.  Other ranks than [root] receive nothing: their counts and sizes stay
    zero.  Rank [r] calls; [None] if an assertion fails on any rank that sends data. *)
Definition comm_graph (root r : nat) : option (adjlist (nat * nat * nat) * list (nat * nat)) :=
  if r =? root then
    let num_edges_remote := map (fun q => length (im_dest (maps q))) (seq 0 P) in
    let disp := psums num_edges_remote in
    edges <- gatherv num_edges_remote (map (fun q => im_dest (maps q)) (seq 0 P)) ;;
    ws <- omap (weights_dest P maps) (seq 0 P) ;;
    weights <- gatherv num_edges_remote ws ;;
    let sizes := combine (map (fun q => size_local (maps q)) (seq 0 P)) (map (fun q => num_ghosts (maps q)) (seq 0 P)) in
    marks <- gatherv num_edges_remote (map markers (seq 0 P)) ;;
    adj_make_nd (combine (combine edges weights) marks) disp sizes
  else adj_make_nd [] (psums (repeat 0 P)) (combine (repeat 0 P) (repeat 0 P)).

(** python/dolfinx/graph.py:150-183: the root that the caller asks for is not passed on, and
    the default of the wrapper (python/dolfinx/wrappers/graph.cpp:87-91) is rank 0. *)
Definition py_comm_graph (root r : nat) : option (adjlist (nat * nat * nat) * list (nat * nat)) :=
  comm_graph 0 r.
End CommGraph.

(** python/dolfinx/wrappers/graph.cpp:93-125: edges (source, target, local, weight) and nodes
    (rank, weight, number of ghosts). *)
Definition comm_graph_data (g : adjlist (nat * nat * nat)) (nd : list (nat * nat))
  : option (list (nat * nat * nat * nat) * list (nat * nat * nat)) :=
  adj <- omap (fun n => l <- links g n ;; Some (map (fun ewl => (n, fst (fst ewl), snd ewl, snd (fst ewl))) l)) (seq 0 (num_nodes g)) ;;
  Some (concat adj, map (fun nw => (fst nw, fst (snd nw), snd (snd nw))) (combine (seq 0 (length nd)) nd)).
