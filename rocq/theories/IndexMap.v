(** Model of cpp/dolfinx/common/IndexMap.{h,cpp}.

    Simplifications: indices are naturals (sizes below 2^31 locally and 2^63
    globally); the communicator has [P] ranks; [nbx] stands for
    [MPI::compute_graph_edges_nbx]. *)
From Verif Require Import Base Algo World.

(** IndexMap.h private members (the communicator is implicit). *)
Record imap := mkIM {
  im_lo : nat; im_hi : nat;            (* _local_range *)
  im_size_global : nat;
  im_ghosts : list nat; im_owners : list nat;
  im_src : list nat; im_dest : list nat }.

(** IndexMap.cpp:945-948, 950 *)
Definition size_local (m : imap) : nat := im_hi m - im_lo m.
Definition num_ghosts (m : imap) : nat := length (im_ghosts m).

Section Maps.
Variables (P : nat) (nbx : (nat -> list nat) -> nat -> list nat).

(** IndexMap.cpp:31-49.  The [assert] that a single rank has no ghosts is [None]. *)
Definition build_src_dest (owners : nat -> list nat) (r : nat) : option (list nat * list nat) :=
  if P =? 1 then (match owners r with [] => Some ([], []) | _ => None end)
  else
    let src := fun q => sort_uniq (owners q) in
    Some (src r, isort Nat.leb (nbx src r)).

(** IndexMap.cpp:865-889: constructor without ghosts. *)
Definition imap_plain (local_size : nat -> nat) (r : nat) : imap :=
  let offset := exscan local_size r in
  mkIM offset (offset + local_size r) (allreduce_sum P local_size) [] [] [] [].

(** IndexMap.cpp:901-933: constructor with given source and destination ranks; the
    first [assert] is [None], the sortedness asserts are preconditions. *)
Definition imap_src_dest (local_size : nat -> nat) (src_dest : list nat * list nat)
    (ghosts owners : list nat) (r : nat) : option imap :=
  if length ghosts =? length owners then
    let offset := exscan local_size r in
    Some (mkIM offset (offset + local_size r) (allreduce_sum P local_size) ghosts owners
               (fst src_dest) (snd src_dest))
  else None.

(** IndexMap.cpp:891-899 *)
Definition imap_make (local_size : nat -> nat) (ghosts owners : nat -> list nat) (r : nat)
  : option imap :=
  sd <- build_src_dest owners r ;;
  imap_src_dest local_size sd (ghosts r) (owners r) r.

(** IndexMap.cpp:957-974, one index.  The [assert] on the ghost position is [None]. *)
Definition local_to_global (m : imap) (local : nat) : option nat :=
  if local <? size_local m then Some (im_lo m + local)
  else nth_error (im_ghosts m) (local - size_local m).

(** IndexMap.cpp:976-1006, one index; -1 if absent. *)
Definition global_to_local (m : imap) (index : nat) : Z :=
  let g2l := isort pair_leb (combine (im_ghosts m) (seq (size_local m) (num_ghosts m))) in
  if (im_lo m <=? index) && (index <? im_hi m) then Z.of_nat (index - im_lo m)
  else
    match nth_error g2l (lower_bound_by fst g2l index) with
    | Some (g, l) => if g =? index then Z.of_nat l else (-1)%Z
    | None => (-1)%Z
    end.

(** IndexMap.cpp:1008-1018 *)
Definition global_indices (m : imap) : list nat :=
  seq (im_lo m) (size_local m) ++ im_ghosts m.

(** A world of index maps: one per rank. *)
Variable maps : nat -> imap.

(** IndexMap.cpp:1260-1289 and 1042-1068: (owner, ghost) pairs sorted; the send buffer,
    the sizes of the groups and their displacements. *)
Definition ghosts_by_owner (m : imap) : option (sbuf nat) :=
  let o2g := isort pair_leb (combine (im_owners m) (im_ghosts m)) in
  sizes <- runs (length o2g) fst o2g ;;
  Some (map snd o2g, (sizes, psums sizes)).

(** The pair of calls MPI_Neighbor_alltoall (sizes), MPI_Neighbor_alltoallv (data): data
    go from [dests]' side to [srcs]' side.  IndexMap.cpp:1077-1099, 1303-1321 and others. *)
Definition exchange {A} (srcs dests : nat -> list nat) (send : nat -> option (sbuf A)) (r : nat)
  : option (list A * list nat) :=
  let rsz := fun q => neigh_alltoall P srcs dests (fun s => '(_, (sizes, _)) <- send s ;; Some sizes) q in
  recv_sizes <- rsz r ;;
  buf <- neigh_alltoallv P srcs dests send rsz r ;;
  Some (buf, recv_sizes).

(** IndexMap.cpp:1254-1335; the asserts that received indices are owned are [None]. *)
Definition shared_indices (r : nat) : option (list nat) :=
  '(recv_buffer, _) <- exchange (fun q => im_dest (maps q)) (fun q => im_src (maps q))
                               (fun q => ghosts_by_owner (maps q)) r ;;
  shared <- omap (fun idx => if (im_lo (maps r) <=? idx) && (idx <? im_hi (maps r))
                             then Some (idx - im_lo (maps r)) else None) recv_buffer ;;
  Some (sort_uniq shared).

(** IndexMap.cpp:1341-1354; a failing [assert] is [None]. *)
Definition weights_src (m : imap) : option (list nat) :=
  ofold (fun w o => pos <- find_sorted (im_src m) o ;; incr w pos)
        (im_owners m) (repeat 0 (length (im_src m))).

(** IndexMap.cpp:1356-1378 *)
Definition weights_dest (r : nat) : option (list nat) :=
  neigh_alltoall P (fun q => im_dest (maps q)) (fun q => im_src (maps q))
                 (fun q => weights_src (maps q)) r.

(** IndexMap.cpp:1115-1122, 1217-1225: [offsets] of the groups with key 0, 1, ..., n-1 of
    a list sorted by key. *)
Definition group_offsets (n : nat) (first : nat) (l : list (nat * nat)) : list nat :=
  let step := fun '(offs, rest) i =>
    let k := prefix_len (fun x => fst x =? i) rest in
    (offs ++ [last offs 0 + k], skipn k rest) in
  fst (fold_left step (seq 0 n) ([first], l)).

(** IndexMap.cpp:1023-1126: the owned part.  Returns the sorted (local index, neighbour
    position) pairs. *)
Definition i2d_src (q : nat) : list nat := sort_uniq (im_owners (maps q)).
Definition i2d_dest (q : nat) : list nat := isort Nat.leb (nbx i2d_src q).
Definition i2d_owned (r : nat) : option (list (nat * nat)) :=
  '(recv_buffer, recv_sizes) <- exchange i2d_dest i2d_src (fun q => ghosts_by_owner (maps q)) r ;;
  let recv_disp := psums recv_sizes in
  blocks <- omap (fun j => b <- slice_at recv_buffer recv_disp j ;;
                           Some (map (fun idx => (idx - im_lo (maps r), j)) b))
                 (seq 0 (length recv_sizes)) ;;
  Some (isort pair_leb (concat blocks)).

(** IndexMap.cpp:1140-1160: for each neighbour, interleaved (global index, rank). *)
Definition i2d_back (r : nat) : option (sbuf nat) :=
  idx_to_rank <- i2d_owned r ;;
  let data := map snd idx_to_rank in
  let offsets := group_offsets (size_local (maps r)) 0 idx_to_rank in
  kvs <- omap (fun n =>
           ranks <- slice_at data offsets n ;;
           per <- omap (fun r0 =>
                    pairs <- omap (fun q => d <- nth_error (i2d_dest r) q ;; Some (q, d)) ranks ;;
                    Some (concat (map (fun qd : nat * nat =>
                             if r0 =? fst qd then []
                             else [(r0, n + im_lo (maps r)); (r0, snd qd)]) pairs)
                          ++ [(r0, n + im_lo (maps r)); (r0, r)])) ranks ;;
           Some (concat per)) (seq 0 (length offsets - 1)) ;;
  dest_idx_to_rank <- push_all (length (i2d_dest r)) (concat kvs) ;;
  let sizes := map (@length nat) dest_idx_to_rank in
  Some (concat dest_idx_to_rank, (sizes, psums sizes)).

(** Every second element: [for (i = 0; i < n; i += 2) (v[i], v[i + 1])] *)
Fixpoint pairs_of (l : list nat) : option (list (nat * nat)) :=
  match l with
  | [] => Some []
  | a :: b :: t => ps <- pairs_of t ;; Some ((a, b) :: ps)
  | [_] => None
  end.

(** IndexMap.cpp:1023-1252 *)
Definition index_to_dest_ranks (r : nat) : option (list nat * list nat) :=
  idx_to_rank <- i2d_owned r ;;
  let offsets := group_offsets (size_local (maps r)) 0 idx_to_rank in
  '(recv_indices, _) <- exchange i2d_src i2d_dest i2d_back r ;;
  let ghosts := im_ghosts (maps r) in
  let idx_to_pos := isort pair_leb (combine ghosts (seq 0 (length ghosts))) in
  prs <- pairs_of recv_indices ;;
  idxpos_to_rank <- omap (fun p : nat * nat =>
      match nth_error idx_to_pos (lower_bound_by fst idx_to_pos (fst p)) with
      | Some (g, pos) => if g =? fst p then Some (pos, snd p) else None   (* assert *)
      | None => None
      end) prs ;;
  let idxpos_to_rank := isort pair_leb idxpos_to_rank in
  let offsets2 := offsets ++ tl (group_offsets (length ghosts) (last offsets 0) idxpos_to_rank) in
  owned <- omap (fun x : nat * nat => nth_error (i2d_dest r) (snd x)) idx_to_rank ;;
  Some (owned ++ map snd idxpos_to_rank, offsets2).
End Maps.
