(** Model of mesh::create_topology in cpp/dolfinx/mesh/Topology.cpp and of its helpers
    vertex_ownership_groups, exchange_indexing, exchange_ghost_indexing and
    convert_to_local_indexing.

    Simplifications: input (old) vertex indices are integers and new ones naturals; the local
    index -1 of a vertex without number is [None]; (old index, new index, owner) triplets are
    sent as one item; the radix sort is a sort (C03); a hash map with [emplace] is the list of
    its pairs; the ranges of convert_to_local_indexing for several threads are one range (each
    entry is converted by itself); the checks under NDEBUG are made.  [dest] (1462-1482) is not
    used by the code and left out.  Exceptions, failing [assert]s and accesses outside arrays
    are [None]. *)
From Verif Require Import Base Algo World IndexMap PostOffice GhostIdx MeshCreate Sharing.
Open Scope nat_scope.

(** [std::ranges::set_difference] of sorted ranges *)
Fixpoint set_difference (a b : list Z) : list Z :=
  match a with
  | [] => []
  | x :: a' =>
    (fix skip (b : list Z) : list Z :=
       match b with
       | [] => a
       | y :: b' => if (x <? y)%Z then x :: set_difference a' b
                    else if (y <? x)%Z then skip b' else set_difference a' b'
       end) b
  end.

(** Topology.cpp:313-390 *)
Definition vertex_ownership_groups (cells_owned cells_ghost : list (list Z)) (boundary : list Z)
  : option (list Z * list Z) :=
  let local_vertex_set := nodes1 (concat cells_owned) in
  let ghost_vertex_set := nodes1 (concat cells_ghost) in
  let owned := set_difference local_vertex_set boundary in
  let unowned := set_difference ghost_vertex_set local_vertex_set in
  if existsb (fun v => existsb (Z.eqb v) boundary) unowned then None else Some (owned, unowned).

(** [it = lower_bound(l, x)] with [assert(it != end and *it == x)], or the test for it *)
Definition zsearch (l : list Z) (x : Z) : option nat :=
  let i := prefix_len (fun y => (y <? x)%Z) l in
  match nth_error l i with Some y => if (y =? x)%Z then Some i else None | None => None end.

(** [operator<=] of [std::pair<int64_t, int32_t>] *)
Definition olocal_leb (a b : option nat) : bool :=
  match a, b with None, _ => true | Some _, None => false | Some x, Some y => x <=? y end.
Definition g2l_leb (a b : Z * option nat) : bool :=
  (fst a <? fst b)%Z || ((fst a =? fst b)%Z && olocal_leb (snd a) (snd b)).
(** [operator<=] and [operator==] of [std::array<int64_t, 3>] *)
Definition vdata_leb (a b : Z * (nat * nat)) : bool := ztriple_leb a b.
Definition vdata_eqb (a b : Z * (nat * nat)) : bool := (fst a =? fst b)%Z && pair_eqb (snd a) (snd b).

(** Topology.cpp:1235-1238, 755-758, 1432-1436: first 0, last n-1 *)
Definition is_identity (l : list Z) : bool :=
  match l with
  | [] => false
  | x :: _ => (x =? 0)%Z && (last l 0 =? Z.of_nat (length l) - 1)%Z
  end.

(** Topology.cpp:1223-1286: numbers the owned vertices in the order of the cells. *)
Definition number_step (pos_of : Z -> option (option nat)) (st : list (option nat) * nat) (vtx : Z)
  : option (list (option nat) * nat) :=
  pos <- pos_of vtx ;;
  match pos with
  | None => Some st
  | Some pos =>
    old <- nth_error (fst st) pos ;;
    match old with
    | Some _ => Some st
    | None => l <- upd (fst st) pos (Some (snd st)) ;; Some (l, S (snd st))
    end
  end.
(** Outer [None]: access before the array. Inner [None]: vertex not owned. *)
Definition position (owned : list Z) (vtx : Z) : option (option nat) :=
  if is_identity owned then
    if (vtx <? Z.of_nat (length owned))%Z then (if (0 <=? vtx)%Z then Some (Some (Z.to_nat vtx)) else None)
    else Some None
  else Some (zfind vtx (combine owned (seq 0 (length owned)))).
Definition number_owned (owned : list Z) (cells : list (list Z)) : option (list (option nat)) :=
  '(l, _) <- ofold (number_step (position owned)) (concat cells) (repeat None (length owned), 0) ;; Some l.

(** Topology.cpp:1356-1365 *)
Definition patch (g2l : list (Z * option nat)) (g : Z) (l : nat) : option (list (Z * option nat)) :=
  i <- zsearch (map fst g2l) g ;; upd g2l i (g, Some l).

(** Local indices of unowned vertices, global-to-local pairs, next local index, global indices
    of the ghosts and their owners. *)
Record vstate := mkVS {
  vs_local : list (option nat); vs_g2l : list (Z * option nat); vs_next : nat;
  vs_ghosts : list nat; vs_owners : list nat }.

(** Topology.cpp:1376-1382 = 1415-1421: gives the next local index to the vertex at [pos]. *)
Definition add_ghost (st : vstate) (pos : nat) (d : Z * (nat * nat)) : option vstate :=
  lu <- upd (vs_local st) pos (Some (vs_next st)) ;;
  g2l <- patch (vs_g2l st) (fst d) (vs_next st) ;;
  Some (mkVS lu g2l (S (vs_next st)) (vs_ghosts st ++ [fst (snd d)]) (vs_owners st ++ [snd (snd d)])).
(** Topology.cpp:1371-1383 *)
Definition unpack_boundary (unowned : list Z) (st : vstate) (d : Z * (nat * nat)) : option vstate :=
  pos <- zsearch unowned (fst d) ;;
  old <- nth_error (vs_local st) pos ;;
  match old with Some _ => None | None => add_ghost st pos d end.
(** Topology.cpp:1406-1424 *)
Definition unpack_ghost (unowned : list Z) (st : vstate) (d : Z * (nat * nat)) : option vstate :=
  match zsearch unowned (fst d) with
  | None => Some st
  | Some pos =>
    old <- nth_error (vs_local st) pos ;;
    match old with Some _ => Some st | None => add_ghost st pos d end
  end.

(** Topology.cpp:742-811, 1429-1452 *)
Definition convert_to_local_indexing (g : list Z) (g2l : list (Z * option nat)) : option (list (option nat)) :=
  omap (fun i =>
    if is_identity (map fst g2l) then
      if ((0 <=? i) && (i <? Z.of_nat (length g2l)))%Z then e <- nth_error g2l (Z.to_nat i) ;; Some (snd e)
      else (k <- zsearch (map fst g2l) i ;; e <- nth_error g2l k ;; Some (snd e))
    else zfind i g2l) g.

Section Topology.
Variables (P : nat) (nbx pcx nbxc nbxv : (nat -> list nat) -> nat -> list nat) (pick : nat -> nat -> nat -> nat).
Variables (threads : nat -> nat).
(** Number of cell types; for each type: vertices per cell, and on each rank the vertices of
    the cells, their original indices and the owners of the ghosts.  Vertices on the boundary. *)
Variables (types : nat) (nv : nat -> nat) (cells original : nat -> nat -> list Z) (ghost_owners : nat -> nat -> list nat).
Variable boundary : nat -> list Z.

(** Topology.cpp:1158-1172: number of owned cells; vertices of owned and of ghost cells. *)
Definition num_local_cells (t q : nat) : option nat :=
  if negb (length (cells t q) mod nv t =? 0) then None
  else
    let n := length (cells t q) / nv t in
    if length (ghost_owners t q) <=? n then Some (n - length (ghost_owners t q)) else None.
Definition owned_cells (t q : nat) : option (list Z) :=
  n <- num_local_cells t q ;; slice (cells t q) 0 (n * nv t).
Definition ghost_cells (t q : nat) : option (list Z) :=
  _ <- num_local_cells t q ;;
  slice (cells t q) (length (cells t q) - length (ghost_owners t q) * nv t) (length (cells t q)).

(** Topology.cpp:1179-1191 *)
Definition ownership_groups (q : nat) : option (list Z * list Z) :=
  co <- omap (fun t => owned_cells t q) (seq 0 types) ;;
  cg <- omap (fun t => ghost_cells t q) (seq 0 types) ;;
  vertex_ownership_groups co cg (boundary q).
Definition vertex_to_ranks (q : nat) : option (list (list nat)) := determine_sharing_ranks P nbx pick boundary q.

(** Topology.cpp:1193-1221: owned and unowned vertices. *)
Definition split_vertices (q : nat) : option (list Z * list Z) :=
  '(owned, unowned) <- ownership_groups q ;;
  ranks <- vertex_to_ranks q ;;
  '(shared, unowned) <- ofold (fun (st : list Z * list Z) i =>
      rs <- nth_error ranks i ;; o <- hd_error rs ;; v <- nth_error (boundary q) i ;;
      Some (if o =? q then (fst st ++ [v], snd st) else (fst st, snd st ++ [v])))
    (seq 0 (length (boundary q))) ([], unowned) ;;
  Some (isort Z.leb (owned ++ shared), isort Z.leb unowned).
Definition owned_vertices (q : nat) : list Z := match split_vertices q with Some (o, _) => o | None => [] end.
Definition nowned (q : nat) : nat := length (owned_vertices q).
(** Topology.cpp:1223-1295 *)
Definition local_indices (q : nat) : option (list (option nat)) :=
  '(owned, _) <- split_vertices q ;; number_owned owned (map (fun t => cells t q) (seq 0 types)).
Definition offset_v (q : nat) : nat := exscan nowned q.

(** Topology.cpp:1297-1312 *)
Definition nloc (t q : nat) : nat := match num_local_cells t q with Some n => n | None => 0 end.
Definition cell_ghosts (t q : nat) : option (list nat) :=
  if length (ghost_owners t q) <=? length (original t q) then
    compute_ghost_indices P pcx (fun s => firstn (nloc t s) (original t s))
      (fun s => skipn (length (original t s) - length (ghost_owners t s)) (original t s)) (ghost_owners t) threads q
  else None.
Definition cell_map (t q : nat) : option imap :=
  _ <- cell_ghosts t q ;;
  imap_make P nbxc (nloc t) (fun s => match cell_ghosts t s with Some g => g | None => [] end) (ghost_owners t) q.
Definition cmap (t q : nat) : imap := match cell_map t q with Some m => m | None => mkIM 0 0 0 [] [] [] [] end.

(** exchange_indexing, Topology.cpp:411-515 *)
Definition ix_src_dest (q : nat) : option (list nat * list nat) :=
  ranks <- vertex_to_ranks q ;;
  '(src, dest) <- ofold (fun (st : list nat * list nat) rs =>
      o <- hd_error rs ;; Some (if o =? q then (fst st, snd st ++ tl rs) else (fst st ++ [o], snd st))) ranks ([], []) ;;
  Some (sort_uniq src, sort_uniq dest).
Definition ix_src (q : nat) : list nat := match ix_src_dest q with Some (s, _) => s | None => [] end.
Definition ix_dest (q : nat) : list nat := match ix_src_dest q with Some (_, d) => d | None => [] end.
Definition ix_send (q : nat) : option (sbuf (Z * (nat * nat))) :=
  '(_, dest) <- ix_src_dest q ;;
  ranks <- vertex_to_ranks q ;;
  '(owned, _) <- split_vertices q ;;
  locals <- local_indices q ;;
  kvs <- omap (fun i =>
      rs <- nth_error ranks i ;; o <- hd_error rs ;;
      if o =? q then
        idx_old <- nth_error (boundary q) i ;; pos <- zsearch owned idx_old ;;
        l <- nth_error locals pos ;; l <- l ;;
        omap (fun d => k <- find_sorted dest d ;; Some (k, (idx_old, (l + offset_v q, q)))) (tl rs)
      else Some []) (seq 0 (length ranks)) ;;
  send_buffer <- push_all (length dest) (concat kvs) ;;
  let sizes := map (@length (Z * (nat * nat))) send_buffer in
  Some (concat send_buffer, (sizes, psums sizes)).
Definition exchange_indexing (r : nat) : option (list (Z * (nat * nat))) :=
  _ <- ix_send r ;; '(data, _) <- exchange P ix_src ix_dest ix_send r ;; Some data.

(** Topology.cpp:1329-1383 *)
Definition boundary_state (q : nat) : option vstate :=
  '(owned, unowned) <- split_vertices q ;;
  locals <- local_indices q ;;
  data <- exchange_indexing q ;;
  let none := repeat None (length unowned) in
  let g2l := isort g2l_leb (combine owned locals ++ combine unowned none) in
  ofold (unpack_boundary unowned) data (mkVS none g2l (length owned) [] []).

(** exchange_ghost_indexing, Topology.cpp:549-725.  The first part: for each rank that ghosts
    cells of this rank, the vertices of these cells. *)
Definition shared_vertices (t q : nat) : option (list (list Z)) :=
  '(recv_buffer, recv_sizes) <- exchange P (fun s => im_dest (cmap t s)) (fun s => im_src (cmap t s))
                                        (fun s => ghosts_by_owner (cmap t s)) q ;;
  omap (fun k =>
      idx <- slice_at recv_buffer (psums recv_sizes) k ;;
      rows <- omap (fun i =>
                if (im_lo (cmap t q) <=? i) && (i <? im_hi (cmap t q)) then
                  let c := i - im_lo (cmap t q) in slice (cells t q) (c * nv t) (c * nv t + nv t)
                else None) idx ;;
      Some (nodes1 (concat rows)))
    (seq 0 (length recv_sizes)).
(** Topology.cpp:683-701 *)
Definition vertex_data (q : nat) (st : vstate) (v : Z) : option (Z * (nat * nat)) :=
  pos <- zsearch (map fst (vs_g2l st)) v ;; e <- nth_error (vs_g2l st) pos ;; l <- snd e ;;
  if l <? nowned q then Some (v, (l + offset_v q, q))
  else g <- nth_error (vs_ghosts st) (l - nowned q) ;; o <- nth_error (vs_owners st) (l - nowned q) ;; Some (v, (g, o)).
Definition gx_send (t q : nat) : option (sbuf (Z * (nat * nat))) :=
  st <- boundary_state q ;;
  sv <- shared_vertices t q ;;
  blocks <- omap (omap (vertex_data q st)) sv ;;
  let sizes := map (@length Z) sv in
  Some (concat blocks, (sizes, psums sizes)).
Definition exchange_ghost_indexing (t r : nat) : option (list (Z * (nat * nat))) :=
  _ <- gx_send t r ;;
  '(data, _) <- exchange P (fun s => im_src (cmap t s)) (fun s => im_dest (cmap t s)) (gx_send t) r ;;
  Some (unique vdata_eqb (isort vdata_leb data)).

(** Topology.cpp:1385-1425 *)
Definition ghost_state (r : nat) : option vstate :=
  '(_, unowned) <- split_vertices r ;;
  st <- boundary_state r ;;
  recv_data <- omap (fun t => exchange_ghost_indexing t r) (seq 0 types) ;;
  ofold (unpack_ghost unowned) (concat recv_data) st.
Definition vghosts (q : nat) : list nat := match ghost_state q with Some st => vs_ghosts st | None => [] end.
Definition vowners (q : nat) : list nat := match ghost_state q with Some st => vs_owners st | None => [] end.

(** Topology.cpp:1135-1506: the index map of the vertices; for each cell type the index map of
    the cells and the vertices of the cells. *)
Definition create_topology (r : nat) : option (imap * list (imap * list (option nat))) :=
  if threads r <? 1 then None
  else
    st <- ghost_state r ;;
    cs <- omap (fun t => m <- cell_map t r ;; c <- convert_to_local_indexing (cells t r) (vs_g2l st) ;; Some (m, c))
               (seq 0 types) ;;
    vm <- imap_make P nbxv nowned vghosts vowners r ;;
    Some (vm, cs).
End Topology.
