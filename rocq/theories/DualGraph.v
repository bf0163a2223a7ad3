(** Model of cpp/dolfinx/mesh/graphbuild.cpp: the dual graph of a distributed mesh.

    Simplifications: vertex numbers are unbounded integers ([int64_t]); numbers of cells
    and positions are naturals; arrays of fixed-length records (facet rows, messages made
    of facet vertices and a cell) are lists of records, so a message item is a pair (row,
    cell) instead of [buffer_shape1] integers and the column-major facet storage holds one
    (row, cell) pair for each facet.  The debug check that facet rows are sorted
    (graphbuild.cpp:107-121) is left out.  A failing [assert], an exception or an access outside
    an array is [None]. *)
From Verif Require Import Base Algo Sort Ranges World IndexMap CellTypes PostOffice.
Open Scope nat_scope.

(** [if (row[i] > row[j]) std::swap(row[i], row[j])] *)
Definition cex (i j : nat) (row : list Z) : option (list Z) :=
  a <- nth_error row i ;; b <- nth_error row j ;;
  if (b <? a)%Z then r <- upd row i b ;; upd r j a else Some row.

(** graphbuild.cpp:668-703: the vertices of a facet are sorted. *)
Definition sort_facet (row : list Z) : option (list Z) :=
  if length row =? 2 then cex 0 1 row
  else if length row =? 3 then r <- cex 0 1 row ;; r <- cex 1 2 r ;; cex 0 1 r
  else if length row =? 4 then
    r <- cex 0 1 row ;; r <- cex 2 3 r ;; r <- cex 0 2 r ;; r <- cex 1 3 r ;; cex 1 2 r
  else Some (isort Z.leb row).

(** graphbuild.cpp:661-705: the row of a facet, with padding. *)
Definition facet_row (width : nat) (v : list Z) (facet_vertices : list nat) : option (list Z) :=
  row <- omap (nth_error v) facet_vertices ;;
  if length row <=? width then
    row <- sort_facet row ;; Some (row ++ repeat (-1)%Z (width - length row))
  else None.

(** A facet in the storage: its row and its cell. *)
Notation frow := (list Z * nat)%type.

(** graphbuild.cpp:649-714: the writes of one thread, (position, row and cell). *)
Definition build_facets (width num_cell_vertices cell_offset facet_offset : nat)
    (cell_facets : list (list nat)) (cells : list Z) : option (list (nat * frow)) :=
  ws <- omap (fun c =>
    v <- slice cells (num_cell_vertices * c) (num_cell_vertices * c + num_cell_vertices) ;;
    omap (fun f => fv <- nth_error cell_facets f ;; row <- facet_row width v fv ;;
                   Some (facet_offset + c * length cell_facets + f, (row, c + cell_offset)))
         (seq 0 (length cell_facets)))
    (seq 0 (length cells / num_cell_vertices)) ;;
  Some (concat ws).

(** graphbuild.cpp:729-751: the writes of all threads for one cell type. *)
Definition thread_writes (threads width num_cell_vertices cell_offset facet_offset : nat)
    (cell_facets : list (list nat)) (cells : list Z) : option (list (list (nat * frow))) :=
  let num_cells := length cells / num_cell_vertices in
  omap (fun i =>
    let '(a, b) := local_range (Z.of_nat i) (Z.of_nat num_cells) (Z.of_nat threads) in
    let c0 := Z.to_nat a in let c1 := Z.to_nat b in
    sub <- slice cells (c0 * num_cell_vertices) (c0 * num_cell_vertices + (c1 - c0) * num_cell_vertices) ;;
    build_facets width num_cell_vertices (cell_offset + c0) (facet_offset + c0 * length cell_facets) cell_facets sub)
    (seq 0 threads).

(** graphbuild.cpp:594-627: for each cell type the number of vertices, the facets and the
    number of cells. *)
Definition block_info (tdim : nat) (tc : cell_type * list Z) : option (nat * (list (list nat) * nat)) :=
  let '(t, cells) := tc in
  if tdim =? 0 then None
  else if negb (tdim =? cell_dim t) then None
  else
    num_cell_vertices <- cell_num_entities t 0 ;;
    cell_facets <- get_entity_vertices t (tdim - 1) ;;
    Some (num_cell_vertices, (cell_facets, length cells / num_cell_vertices)).

(** Equality and order of rows *)
Fixpoint zrow_eqb (a b : list Z) : bool :=
  match a, b with
  | [], [] => true
  | x :: a, y :: b => (x =? y)%Z && zrow_eqb a b
  | _, _ => false
  end.

(** [while (it != end) { it1 = find_if_not(it, end, same as *it); ...; it = it1; }]: the
    groups.  graphbuild.cpp:338-355, 375, 820-831, 862.  The fuel is at least the length. *)
Fixpoint group_by {A} (fuel : nat) (same : A -> A -> bool) (l : list A) : option (list (list A)) :=
  match l with
  | [] => Some []
  | x :: _ =>
    match fuel with
    | 0 => None
    | S f => let n := prefix_len (same x) l in
             rest <- group_by f same (skipn n l) ;; Some (firstn n l :: rest)
    end
  end.

(** [for (a = begin; a != end; ++a) for (b = next(a); b != end; ++b)], graphbuild.cpp:356-373,
    849-859 *)
Fixpoint all_pairs {A} (l : list A) : list (A * A) :=
  match l with
  | [] => []
  | x :: t => map (pair x) t ++ all_pairs t
  end.

(** Both directions of an edge, graphbuild.cpp:380-405, 877-893 *)
Definition both {A B} (f : A -> B) (p : A * A) : list (A * B) := [(fst p, f (snd p)); (snd p, f (fst p))].

(** Offsets and data of an adjacency list from (node, link) pairs in the order of writing:
    graphbuild.cpp:876-893. *)
Definition fill_links (n : nat) (kvs : list (nat * nat)) : option (list nat * list nat) :=
  num_links <- count_keys n (map fst kvs) ;;
  let offsets := psums num_links in
  '(_, data) <- ofold place kvs (offsets, repeat 0 (last offsets 0)) ;;
  Some (offsets, data).

(** The result of build_local_dual_graph: offsets and data of the graph, unmatched facets,
    vertices per facet, cells of the unmatched facets. *)
Record ldual := mkLD { ld_offsets : list nat; ld_data : list nat; ld_facets : list (list Z); ld_width : nat; ld_cells : list nat }.
Definition ld_nodes (l : ldual) : nat := length (ld_offsets l) - 1.

Section Local.
(** The order in which the writes of the threads for cell type [j] take effect, and
    [boost::sort::block_indirect_sort]. *)
Variable sched : nat -> list (nat * frow) -> list (nat * frow).
Variable tsort : list (list Z) -> list nat.

(** graphbuild.cpp:716-753: the storage. *)
Definition facet_storage (threads width : nat) (infos : list (nat * (list (list nat) * nat))) (cells : list (list Z)) : option (list frow) :=
  let cell_offsets := psums (map (fun i => snd (snd i)) infos) in
  let facet_offsets := psums (map (fun i => length (fst (snd i)) * snd (snd i)) infos) in
  ofold (fun mem j =>
    info <- nth_error infos j ;; cs <- nth_error cells j ;;
    co <- nth_error cell_offsets j ;; fo <- nth_error facet_offsets j ;;
    ws <- thread_writes threads width (fst info) co fo (fst (snd info)) cs ;;
    ofold (fun (mem : list frow) w => upd mem (fst w) (snd w)) (sched j (concat ws)) mem)
    (seq 0 (length cells)) (repeat ([], 0) (last facet_offsets 0)).

(** graphbuild.cpp:761-791: the sorted order of the facets. *)
Definition facet_order (threads width : nat) (keys : list (list Z)) : option (list nat) :=
  if 1 <? threads then Some (tsort keys)
  else sort_by_perm_cols 64 16 (map (fun k => map (fun row => nth k row 0%Z) keys) (seq 0 width)).

Definition same_row (keys : list (list Z)) (i j : nat) : bool :=
  match nth_error keys i, nth_error keys j with Some a, Some b => zrow_eqb a b | _, _ => false end.

(** graphbuild.cpp:566-900 *)
Definition build_local_dual_graph (celltypes : list cell_type) (cells : list (list Z))
    (max_facet_to_cell_links : option nat) (threads : nat) : option ldual :=
  if threads <? 1 then None
  else if lsum (map (@length Z) cells) =? 0 then Some (mkLD [0] [] [] 0 [])
  else if negb (length cells =? length celltypes) then None
  else
    tdim <- option_map cell_dim (hd_error celltypes) ;;
    infos <- omap (block_info tdim) (combine celltypes cells) ;;
    let width := fold_right Nat.max 0 (map (@length nat) (concat (map (fun i => fst (snd i)) infos))) in
    facets <- facet_storage threads width infos cells ;;
    let keys := map fst facets in
    perm <- facet_order threads width keys ;;
    groups <- group_by (length perm) (same_row keys) perm ;;
    unmatched <- omap (nth_error facets)
      (concat (filter (fun g => match max_facet_to_cell_links with None => true | Some m => length g <? m end) groups)) ;;
    edges <- omap (fun ab => a <- nth_error facets (fst ab) ;; b <- nth_error facets (snd ab) ;; Some (snd a, snd b))
      (concat (map all_pairs groups)) ;;
    '(offsets, data) <- fill_links (lsum (map (fun i => snd (snd i)) infos)) (concat (map (both (fun c => c)) edges)) ;;
    Some (mkLD offsets data (map fst unmatched) width (map snd unmatched)).
End Local.

Section Nonlocal.
Variables (P : nat) (nbx : (nat -> list nat) -> nat -> list nat).
(** The local dual graph of every rank *)
Variable L : nat -> option ldual.

(** graphbuild.cpp:136-157: (width, -min, max) of one rank. *)
Definition local_extent (r : nat) : option (Z * (Z * Z)) :=
  l <- L r ;;
  firsts <- omap (@hd_error Z) (ld_facets l) ;;
  let lo := fold_left Z.min firsts (if 0 <? length firsts then (2 ^ 63 - 1)%Z else 0%Z) in
  let hi := fold_left Z.max firsts 0%Z in
  Some (Z.of_nat (ld_width l), (- lo, hi)%Z).
(** MPI_Allreduce(MPI_MAX) *)
Definition allreduce_zmax (l : list Z) : Z := fold_right Z.max (- 2 ^ 63)%Z l.
(** graphbuild.cpp:158-168: the width of a facet row in a message and the vertex range.
    Overflow of [recv[2] + 1] is [None]. *)
Definition extent : option (nat * (Z * Z)) :=
  es <- omap local_extent (seq 0 P) ;;
  let w := allreduce_zmax (map fst es) in
  let lo := (- allreduce_zmax (map (fun e => fst (snd e)) es))%Z in
  let hi := (allreduce_zmax (map (fun e => snd (snd e)) es) + 1)%Z in
  if (0 <=? w)%Z && (0 <=? lo)%Z && (lo <=? hi)%Z && (hi <? 2 ^ 63)%Z then Some (Z.to_nat w, (lo, hi)) else None.

(** graphbuild.cpp:124-131: MPI_Iexscan *)
Definition cell_offset (r : nat) : option nat :=
  ns <- omap (fun q => l <- L q ;; Some (ld_nodes l)) (seq 0 r) ;; Some (lsum ns).

(** graphbuild.cpp:170-230: destinations, items for each, and the destination of each facet. *)
Definition dual_plan (r : nat) : option (list nat * (list nat * list nat)) :=
  l <- L r ;;
  '(_, (lo, hi)) <- extent ;;
  d2i <- omap (fun f => row <- nth_error (ld_facets l) f ;; v <- hd_error row ;;
                        if (0 <=? v - lo)%Z && (v - lo <? hi - lo)%Z then
                          a <- index_owner (Z.of_nat P) (v - lo) (hi - lo) ;; Some (Z.to_nat a, f)
                        else None)
              (seq 0 (length (ld_cells l))) ;;
  let dest_to_index := ksort d2i in
  rs <- key_runs (length dest_to_index) dest_to_index ;;
  pos_to_neigh_rank <-
    ofold (fun pos (nr : nat * (nat * list nat)) =>
             ofold (fun pos i => upd pos i (Some (fst nr))) (snd (snd nr)) pos)
          (combine (seq 0 (length rs)) rs) (repeat None (length (ld_cells l))) ;;
  pos <- omap (fun x : option nat => x) pos_to_neigh_rank ;;
  Some (map fst rs, (map (fun r => length (snd r)) rs, pos)).
Definition dual_dest (r : nat) : list nat := match dual_plan r with Some (d, _) => d | None => [] end.
(** graphbuild.cpp:232-234 *)
Definition dual_src : nat -> list nat := nbx dual_dest.

(** graphbuild.cpp:249-276: [send_indx_to_pos] and the items (facet, cell), which are written
    at the same positions. *)
Definition dual_pack (r : nat) : option (list (nat * frow) * (list nat * list nat)) :=
  l <- L r ;;
  '(w, _) <- extent ;;
  off <- cell_offset r ;;
  '(_, (num_items_per_dest, pos_to_neigh_rank)) <- dual_plan r ;;
  kvs <- omap (fun f =>
      nd <- nth_error pos_to_neigh_rank f ;; row <- nth_error (ld_facets l) f ;; c <- nth_error (ld_cells l) f ;;
      if length row <=? w then Some (nd, (f, (row ++ repeat (-1)%Z (w - length row), c + off))) else None)
    (seq 0 (length (ld_cells l))) ;;
  let send_disp := psums num_items_per_dest in
  '(_, buf) <- ofold place kvs (send_disp, repeat (0, ([], 0)) (last send_disp 0)) ;;
  Some (buf, (num_items_per_dest, send_disp)).
Definition dual_send (r : nat) : option (sbuf frow) :=
  '(buf, sz) <- dual_pack r ;; Some (map snd buf, sz).

(** graphbuild.cpp:278-301 *)
Definition dual_recv (r : nat) : option (list frow * list nat) := exchange P dual_src dual_dest dual_send r.

(** graphbuild.cpp:303-406: the matches found by a post office, counts and data. *)
Definition dual_match (r : nat) : option (list nat * list nat) :=
  '(w, _) <- extent ;;
  '(recv, _) <- dual_recv r ;;
  let keys := map fst recv in
  sort_order <- sort_by_perm 64 16 (concat keys) w w ;;
  groups <- group_by (length sort_order) (same_row keys) sort_order ;;
  let matched := concat (map all_pairs groups) in
  kvs <- omap (fun p : nat * nat => b <- nth_error recv (snd p) ;; Some (fst p, snd b))
              (concat (map (both (fun i => i)) matched)) ;;
  counts <- count_keys (length recv) (map fst kvs) ;;
  let displs := psums counts in
  '(_, data) <- ofold place kvs (displs, repeat 0 (lsum counts)) ;;
  Some (counts, data).

(** graphbuild.cpp:427-458: sums of the counts of the items of each neighbour. *)
Definition per_process (num_items counts : list nat) : option (list nat) :=
  omap (fun i => b <- slice_at counts (psums num_items) i ;; Some (lsum b)) (seq 0 (length num_items)).

(** graphbuild.cpp:408-420: the counts travel back. *)
Definition send_counts (r : nat) : option (sbuf nat) :=
  '(counts, _) <- dual_match r ;; '(_, num_items_recv) <- dual_recv r ;;
  Some (counts, (num_items_recv, psums num_items_recv)).
Definition items_per_dest (r : nat) : option (list nat) := '(_, (n, _)) <- dual_plan r ;; Some n.
Definition recv_counts (r : nat) : option (list nat) :=
  neigh_alltoallv P dual_dest dual_src send_counts items_per_dest r.
(** graphbuild.cpp:461-469: the matched cells travel back. *)
Definition send_edges (r : nat) : option (sbuf nat) :=
  '(counts, data) <- dual_match r ;; '(_, num_items_recv) <- dual_recv r ;;
  pp <- per_process num_items_recv counts ;;
  Some (data, (pp, psums pp)).
Definition recv_edges (r : nat) : option (list nat) :=
  neigh_alltoallv P dual_dest dual_src send_edges
    (fun q => n <- items_per_dest q ;; c <- recv_counts q ;; per_process n c) r.

(** [std::adjacent_difference] *)
Fixpoint adj_diff (a : nat) (l : list nat) : list nat :=
  match l with [] => [] | x :: t => (x - a) :: adj_diff x t end.

(** [l[a..a+|v|) = v] *)
Definition blit {A} (l : list A) (a : nat) (v : list A) : option (list A) :=
  ofold (fun l iv => upd l (a + fst iv) (snd iv)) (combine (seq 0 (length v)) v) l.

(** graphbuild.cpp:536-554: sort and unique of the links of one node, moved to [write_pos].
    The elements behind those kept by [std::ranges::unique] are unspecified; here they stay. *)
Definition compact_step (st : list nat * list nat * nat) (node : nat) : option (list nat * list nat * nat) :=
  let '(data, offsets, write_pos) := st in
  node_start <- nth_error offsets node ;; node_end <- nth_error offsets (S node) ;;
  offsets <- upd offsets node write_pos ;;
  links <- slice data node_start node_end ;;
  data <- blit data node_start (isort Nat.leb links) ;;
  let kept := unique Nat.eqb (isort Nat.leb links) in
  data <- blit data node_start kept ;;
  data <- (if negb (write_pos =? node_start) then
             k <- slice data node_start (node_start + length kept) ;; blit data write_pos k
           else Some data) ;;
  Some (data, offsets, write_pos + length kept).
(** graphbuild.cpp:535-559 *)
Definition compact (data offsets : list nat) : option (list nat * list nat) :=
  '(data, offsets, write_pos) <- ofold compact_step (seq 0 (length offsets - 1)) (data, offsets, 0) ;;
  offsets <- upd offsets (length offsets - 1) write_pos ;;
  Some (offsets, firstn write_pos data).

(** graphbuild.cpp:473-559: the offsets, and the local and remote links in their order of
    writing.  Writing the local links of node [i] at [offsets[i]] and adding their number to
    [disp[i]] is writing them one by one at [disp[i]++]. *)
Definition nonlocal_rows (r : nat) : option (list nat * list nat) :=
  l <- L r ;;
  off <- cell_offset r ;;
  '(buf, _) <- dual_pack r ;;
  counts <- recv_counts r ;;
  edges <- recv_edges r ;;
  num_edges <- ofold (fun ne i =>
      it <- nth_error buf i ;; cell <- nth_error (ld_cells l) (fst it) ;;
      k <- nth_error counts i ;; modify ne cell (fun x => x + k))
    (seq 0 (length counts)) (adj_diff 0 (tl (ld_offsets l))) ;;
  let offsets := psums num_edges in
  loc <- omap (fun i => e <- slice_at (ld_data l) (ld_offsets l) i ;; Some (map (fun x => (i, x + off)) e)) (seq 0 (ld_nodes l)) ;;
  rem <- omap (fun i => it <- nth_error buf i ;; cell <- nth_error (ld_cells l) (fst it) ;;
                        e <- slice_at edges (psums counts) i ;; Some (map (pair cell) e)) (seq 0 (length counts)) ;;
  '(_, data) <- ofold place (concat loc ++ concat rem) (offsets, repeat 0 (last offsets 0)) ;;
  compact data offsets.

(** graphbuild.cpp:55-560: offsets and data on rank [r]. *)
Definition compute_nonlocal_dual_graph (r : nat) : option (list nat * list nat) :=
  if P =? 1 then l <- L r ;; Some (ld_offsets l, ld_data l) else nonlocal_rows r.
End Nonlocal.

(** graphbuild.cpp:902-924: every rank [q] calls it with [celltypes q], [cells q] and
    [threads q]. *)
Definition build_dual_graph (P : nat) (nbx : (nat -> list nat) -> nat -> list nat)
    (sched : nat -> nat -> list (nat * frow) -> list (nat * frow)) (tsort : nat -> list (list Z) -> list nat)
    (celltypes : nat -> list cell_type) (cells : nat -> list (list Z))
    (max_facet_to_cell_links : option nat) (threads : nat -> nat) (r : nat) : option (list nat * list nat) :=
  compute_nonlocal_dual_graph P nbx
    (fun q => build_local_dual_graph (sched q) (tsort q) (celltypes q) (cells q) max_facet_to_cell_links (threads q)) r.
