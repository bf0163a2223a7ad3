(** Model of io::distribute_entity_data (cpp/dolfinx/io/utils.h:30-487).

    Simplifications: a two-dimensional array is the list of its rows; a row of vertex nodes and
    its value are one item (the code sends them in two buffers with the same sizes and
    displacements, rows as one MPI item); node indices are naturals; of the element layout only
    the dofs of the cell vertices, the closure dofs of the first entity of the dimension and the
    number of vertices of that entity are kept.  Exceptions, failing [assert]s and accesses
    outside arrays are [None]. *)
From Verif Require Import Base Algo World IndexMap PostOffice.

Section EntityData.
Variables (P : nat) (nbx : (nat -> list nat) -> nat -> list nat) (V : Type).
(** std::ranges::sort of positions by destination (utils.h:147-150): any order inside a
    destination. *)
Variable sort_by_dest : list (nat * (list nat * V)) -> list (nat * (list nat * V)).
(** utils.h:72-79, 92-93, 104-105 *)
Variables (cell_vertex_dofs entity_layout : list nat) (num_vert_per_e : nat).
Variable num_nodes_g : nat.
(** Per rank: entities by their nodes, values, input index of each geometry dof, connectivity of cells and
    vertices, geometry dofmap. *)
Variables (entities : nat -> list (list nat)) (data : nat -> list V) (nodes_g : nat -> list nat).
Variables (c_to_v : nat -> option (list (list nat))) (xdofmap : nat -> list (list nat)).

(** utils.h:94-102 *)
Definition entity_vertex_dofs : list nat :=
  concat (map (fun d => match index_in d entity_layout with Some i => [i] | None => [] end) cell_vertex_dofs).
(** utils.h:107-117 *)
Definition vertex_entity (row : list nat) : option (list nat) :=
  if length row =? length entity_layout then
    vs <- omap (fun i => j <- nth_error entity_vertex_dofs i ;; nth_error row j) (seq 0 num_vert_per_e) ;;
    Some (isort Nat.leb vs)
  else None.

(** utils.h:131-171: runs of equal destinations of a sorted list: destinations, sizes, buffer. *)
Definition runs {T} (l : list (nat * T)) : option (list nat * sbuf T) :=
  rs <- key_runs (length l) l ;;
  let sizes := map (fun r : nat * list T => length (snd r)) rs in
  Some (map fst rs, (map snd l, (sizes, psums sizes))).
Definition run_dests {T} (l : option (list nat * sbuf T)) : list nat := match l with Some (d, _) => d | None => [] end.
Definition run_buffer {T} (l : option (list nat * sbuf T)) : option (sbuf T) := '(_, b) <- l ;; Some b.

(** utils.h:69, 128-218: entities to the post office of their first vertex. *)
Definition entity_items (r : nat) : option (list (nat * (list nat * V))) :=
  if length (entities r) =? length (data r) then
    rows <- omap vertex_entity (entities r) ;;
    omap (fun ev : list nat * V => n <- hd_error (fst ev) ;; d <- owner_of P num_nodes_g n ;; Some (d, ev)) (combine rows (data r))
  else None.
Definition post_entities (r : nat) : option (list nat * sbuf (list nat * V)) := items <- entity_items r ;; runs (sort_by_dest items).
Definition entity_dest (r : nat) : list nat := run_dests (post_entities r).
Definition entity_src (r : nat) : list nat := isort Nat.leb (nbx entity_dest r).
Definition entitiesp (r : nat) : option (list (list nat * V)) :=
  _ <- post_entities r ;;
  '(recv, _) <- exchange P entity_src entity_dest (fun q => run_buffer (post_entities q)) r ;; Some recv.

(** utils.h:237-318: nodes to their post office. *)
Definition post_nodes (r : nat) : option (list nat * sbuf nat) :=
  l <- omap (fun n => d <- owner_of P num_nodes_g n ;; Some (d, n)) (nodes_g r) ;;
  runs (isort pair_leb l).
Definition node_dest (r : nat) : list nat := run_dests (post_nodes r).
Definition node_src (r : nat) : list nat := isort Nat.leb (nbx node_dest r).
Definition nodes_p (r : nat) : option (list nat * list nat) :=
  _ <- post_nodes r ;;
  exchange P node_src node_dest (fun q => run_buffer (post_nodes q)) r.

(** utils.h:330-335: the multimap from nodes to positions of ranks in [node_src]; equal keys keep
    the order of insertion. *)
Definition node_to_rank (r : nat) : option (list (nat * nat)) :=
  '(recv, sizes) <- nodes_p r ;;
  l <- omap (fun i => ns <- slice_at recv (psums sizes) i ;; Some (map (fun n => (n, i)) ns)) (seq 0 (length sizes)) ;;
  Some (concat l).
(** utils.h:337-389: entities to all ranks that have the first vertex. *)
Definition candidates (r : nat) : option (sbuf (list nat * V)) :=
  m <- node_to_rank r ;;
  es <- entitiesp r ;;
  kvs <- omap (fun ev : list nat * V => n <- hd_error (fst ev) ;; Some (map (fun p => (p, ev)) (vals n m))) es ;;
  send_data <- push_all (length (node_src r)) (concat kvs) ;;
  let sizes := map (@length _) send_data in
  Some (concat send_data, (sizes, psums sizes)).
(** utils.h:390-425 *)
Definition entities_data (r : nat) : option (list (list nat * V)) :=
  _ <- candidates r ;;
  '(recv, _) <- exchange P node_dest node_src candidates r ;; Some recv.

(** utils.h:437-452: the map as a list of keys and values, the last one first. *)
Definition input_idx_to_vertex (r : nat) : option (list (nat * nat)) :=
  cv <- c_to_v r ;;
  l <- omap (fun c =>
      vertices <- nth_error cv c ;;
      xdofs <- nth_error (xdofmap r) c ;;
      omap (fun v => vertex <- nth_error vertices v ;; d <- nth_error cell_vertex_dofs v ;; x <- nth_error xdofs d ;; n <- nth_error (nodes_g r) x ;; Some (n, vertex))
        (seq 0 (length vertices)))
    (seq 0 (length cv)) ;;
  Some (rev (concat l)).
Definition find_key (m : list (nat * nat)) (n : nat) : option nat := p <- find (fun p => fst p =? n) m ;; Some (snd p).
(** utils.h:454-482 *)
Definition select_entities (m : list (nat * nat)) (es : list (list nat * V)) : list (list nat * V) :=
  concat (map (fun ev => match omap (find_key m) (fst ev) with Some vs => [(vs, snd ev)] | None => [] end) es).
Definition distribute_entity_data (r : nat) : option (list (list nat * V)) :=
  es <- entities_data r ;;
  m <- input_idx_to_vertex r ;;
  Some (select_entities m es).
End EntityData.
