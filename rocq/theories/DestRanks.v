(** Model of [compute_destination_ranks] (cpp/dolfinx/graph/partitioners.cpp) and of
    [create_identity_partitioner] (cpp/dolfinx/refinement/refine.h).

    Simplifications: numbers are unbounded; a message is a list of pairs instead of a list of
    twice as many integers; an adjacency list is the list of its rows (theorem C01).  The order
    in which a hash set lists its elements is a parameter.  A failing [assert] and an access
    outside an array are [None]; so is a receive buffer that is too small for the sources. *)
From Verif Require Import Base Algo World IndexMap PostOffice MatrixCSR CellTypes DualGraph.
Open Scope nat_scope.

(** [std::ranges::upper_bound(l, x) - l.begin()] for a sorted list *)
Definition upper_bound (l : list nat) (x : nat) : nat := prefix_len (fun y => y <=? x) l.

Section Destinations.
Variables (P : nat) (nbx : (nat -> list nat) -> nat -> list nat).
(** [boost::unordered_flat_set] on rank [r] *)
Variables (set3 : nat -> list (nat * (nat * nat)) -> list (nat * (nat * nat))) (set2 : nat -> list (nat * nat) -> list (nat * nat)).
(** Links of the nodes, first nodes of the ranks and destinations of the nodes, on every rank *)
Variables (graph : nat -> list (list nat)) (node_disp : nat -> list nat) (part : nat -> list nat).

(** partitioners.cpp:49-75: (rank of node1, (node1, destination of node0)) *)
Definition node_to_dest (r : nat) : option (list (nat * (nat * nat))) :=
  range0 <- nth_error (node_disp r) r ;;
  range1 <- nth_error (node_disp r) (S r) ;;
  if negb (range1 - range0 =? length (graph r)) then None else
  l <- omap (fun '(node0, links) => omap (fun node1 =>
         d <- nth_error (part r) node0 ;;
         if (node1 <? range0) || (range1 <=? node1) then
           match upper_bound (node_disp r) node1 with 0 => None | S remote_rank => Some (remote_rank, (node1, d)) end
         else Some (r, (node1, d))) links) (enum (graph r)) ;;
  Some (concat l).
(** partitioners.cpp:77-122: the destinations and what is sent to each *)
Definition dr_plan (r : nat) : option (list (nat * list (nat * nat))) :=
  l <- node_to_dest r ;; let sorted := ksort (set3 r l) in key_runs (length sorted) sorted.
Definition dr_dest (r : nat) : list nat := match dr_plan r with Some rs => map fst rs | None => [] end.
Definition dr_send (r : nat) : option (sbuf (nat * nat)) :=
  rs <- dr_plan r ;; let sizes := map (fun k => length (snd k)) rs in Some (concat (map snd rs), (sizes, psums sizes)).
(** partitioners.cpp:124-133 *)
Definition dr_src (r : nat) : list nat := nbx dr_dest r.
(** partitioners.cpp:135-162: the array of received sizes has one entry for each destination,
    and MPI writes one for each source. *)
Definition dr_recv (r : nat) : option (list (nat * nat)) :=
  if length (dr_dest r) <? length (dr_src r) then None else
  '(data, _) <- exchange P dr_src dr_dest dr_send r ;; Some data.
(** partitioners.cpp:164-182 *)
Definition local_node_to_dest (r : nat) : option (list (nat * nat)) :=
  range0 <- nth_error (node_disp r) r ;;
  range1 <- nth_error (node_disp r) (S r) ;;
  data <- dr_recv r ;;
  l <- omap (fun '(idx, d) => if (range0 <=? idx) && (idx <? range1) then Some (idx - range0, d) else None) data ;;
  Some (combine (seq 0 (length (part r))) (part r) ++ l).
(** [std::iter_swap(d.begin(), d.begin() + k)] *)
Definition swap_first (d : list nat) (k : nat) : option (list nat) :=
  a <- nth_error d 0 ;; b <- nth_error d k ;; d <- upd d 0 b ;; upd d k a.
(** partitioners.cpp:184-230 *)
Definition destination_ranks (r : nat) : option (list (list nat)) :=
  l <- local_node_to_dest r ;;
  '(offsets, data) <- fill_links (length (graph r)) (ksort (set2 r l)) ;;
  omap (fun i => d <- slice_at data offsets i ;; p <- nth_error (part r) i ;; k <- index_in p d ;; swap_first d k) (seq 0 (length (graph r))).
End Destinations.

(** refine.h:53-74: the destination of every refined cell; [m]: index map of the parent cells *)
Definition identity_destinations (m : imap) (parent_cell : list nat) (num_cells r : nat) : option (list nat) :=
  omap (fun i => c <- nth_error parent_cell i ;;
                 if size_local m <? c then nth_error (im_owners m) (c - size_local m) else Some r) (seq 0 num_cells).

Section Identity.
Variables (P : nat) (nbx : (nat -> list nat) -> nat -> list nat).
Variables (set3 : nat -> list (nat * (nat * nat)) -> list (nat * (nat * nat))) (set2 : nat -> list (nat * nat) -> list (nat * nat)).
Variables (sched : nat -> nat -> list (nat * frow) -> list (nat * frow)) (tsort : nat -> list (list Z) -> list nat) (threads : nat -> nat).
(** Index map of the parent cells, parents, and type and vertices of the refined cells *)
Variables (pmaps : nat -> imap) (parent_cell : nat -> list nat) (t : cell_type) (cells : nat -> list Z).

(** refine.h:80: the dual graph *)
Definition id_dual (r : nat) : option (list (list nat)) :=
  '(offsets, data) <- build_dual_graph P nbx sched tsort (fun _ => [t]) (fun q => [cells q]) (Some 2) threads r ;;
  omap (slice_at data offsets) (seq 0 (length offsets - 1)).
Definition id_graph (r : nat) : list (list nat) := match id_dual r with Some g => g | None => [] end.
(** refine.h:58-60 *)
Definition id_num_cells (r : nat) : nat := length (cells r) / length (nth 0 (topology t) []).
Definition id_part (r : nat) : option (list nat) := identity_destinations (pmaps r) (parent_cell r) (id_num_cells r) r.
(** refine.h:52-86 *)
Definition identity_partitioner (r : nat) : option (list (list nat)) :=
  _ <- id_part r ;; _ <- id_dual r ;;
  destination_ranks P nbx set3 set2 id_graph
    (fun _ => psums (map (fun q => length (id_graph q)) (seq 0 P)))
    (fun q => match id_part q with Some p => p | None => [] end) r.
End Identity.
