(** Model of the functions of cpp/dolfinx/common/IndexMap.cpp that build new maps:
    compute_owned_indices, create_sub_index_map, stack_index_maps.

    Simplifications: as in IndexMap.v; a failing [assert] and a thrown exception are
    [None] on the rank concerned. *)
From Verif Require Import Base Algo World IndexMap.

Section SubMap.
Variable P : nat.

(** ** compute_owned_indices *)
Section Owned.
Variables (maps : nat -> imap) (indices : nat -> list nat).

(** IndexMap.cpp:574-590: number of pairs for each source; [rest] starts at [it]. *)
Fixpoint coi_sizes (src : list nat) (rest : list (nat * nat)) : list nat :=
  match src with
  | [] => []
  | owner :: t =>
    let b := skipn (prefix_len (fun p => negb (fst p =? owner)) rest) rest in
    let n := prefix_len (fun p => fst p <=? owner) b in
    n :: coi_sizes t (if n =? 0 then rest else skipn n b)
  end.

(** IndexMap.cpp:549-569, 612-615: send buffer. *)
Definition coi_send (q : nat) : option (sbuf nat) :=
  let m := maps q in
  let first_ghost_index := lower_bound (indices q) (size_local m) in
  o2g <- omap (fun idx => o <- nth_error (im_owners m) (idx - size_local m) ;;
                          g <- nth_error (im_ghosts m) (idx - size_local m) ;; Some (o, g))
              (skipn first_ghost_index (indices q)) ;;
  let o2g := isort pair_leb o2g in
  let sizes := coi_sizes (im_src m) o2g in
  Some (map snd o2g, (sizes, psums sizes)).

(** IndexMap.cpp:541-654 *)
Definition compute_owned_indices (r : nat) : option (list nat) :=
  let m := maps r in
  '(recv_buffer, _) <- exchange P (fun q => im_dest (maps q)) (fun q => im_src (maps q)) coi_send r ;;
  recv <- omap (fun idx => if (im_lo m <=? idx) && (idx <? im_hi m) then Some (idx - im_lo m) else None)
               (sort_uniq recv_buffer) ;;
  Some (sort_uniq (firstn (lower_bound (indices r) (size_local m)) (indices r) ++ recv)).
End Owned.

(** ** Sending ghosts to their owners *)
(** IndexMap.cpp:100-111, 118-133: the send buffer and, for each entry of it, the
    position of the ghost. *)
Definition cgo_send (src ghosts owners : list nat) (include_ghost : list bool)
  : option (sbuf nat * list nat) :=
  kvs <- omap (fun i => g <- nth_error ghosts i ;; o <- nth_error owners i ;;
                        inc <- nth_error include_ghost i ;; r <- find_sorted src o ;;
                        Some (if inc : bool then [(r, (g, i))] else []))
              (seq 0 (length ghosts)) ;;
  b <- push_all (length src) (concat kvs) ;;
  let sizes := map (@length (nat * nat)) b in
  Some ((map fst (concat b), (sizes, psums sizes)), map snd (concat b)).

(** The reply of the owners: MPI_Neighbor_alltoallv on the reversed graph with the
    sizes of the first exchange exchanged. *)
Definition reply {A} (srcs dests : nat -> list nat) (data : nat -> option (list A * list nat))
    (send : nat -> option (sbuf nat * list nat)) (r : nat) : option (list A) :=
  neigh_alltoallv P srcs dests
    (fun q => '(buf, recv_sizes) <- data q ;; Some (buf, (recv_sizes, psums recv_sizes)))
    (fun q => '((_, (send_sizes, _)), _) <- send q ;; Some send_sizes) r.

(** ** create_sub_index_map *)
Section Sub.
Variables (maps : nat -> imap) (indices : nat -> list nat).
Variables (preserve allow_owner_change : bool).

(** IndexMap.cpp:183-187 *)
Definition is_in_submap (q : nat) : option (list bool) :=
  ofold (fun v i => upd v i true) (indices q) (repeat false (size_local (maps q) + num_ghosts (maps q))).

(** IndexMap.cpp:192-197 *)
Definition sub_send (q : nat) : option (sbuf nat * list nat) :=
  inm <- is_in_submap q ;;
  let m := maps q in
  cgo_send (im_src m) (im_ghosts m) (im_owners m) (skipn (size_local m) inm).
Definition sub_recv (r : nat) : option (list nat * list nat) :=
  exchange P (fun q => im_dest (maps q)) (fun q => im_src (maps q))
           (fun q => '(s, _) <- sub_send q ;; Some s) r.

(** The received indices, grouped by the rank that sent them. *)
Definition sub_blocks (r : nat) : option (list (nat * list nat)) :=
  '(recv_indices, recv_sizes) <- sub_recv r ;;
  omap (fun i => d <- nth_error (im_dest (maps r)) i ;;
                 b <- slice_at recv_indices (psums recv_sizes) i ;; Some (d, b))
       (seq 0 (length recv_sizes)).

(** IndexMap.cpp:216-254: (index, possible owner) pairs, and the ranks that stay
    destinations. *)
Definition sub_possible (r : nat) : option (list (nat * nat) * list nat) :=
  inm <- is_in_submap r ;;
  blocks <- sub_blocks r ;;
  let m := maps r in
  ents <- omap (fun db : nat * list nat =>
            omap (fun idx =>
                    if (im_lo m <=? idx) && (idx <? im_hi m) then
                      b <- nth_error inm (idx - im_lo m) ;; Some (fst db, idx, b)
                    else None) (snd db)) blocks ;;
  let ents := concat ents in
  if negb allow_owner_change && existsb (fun e => negb (snd e)) ents then None
  else
    Some (isort pair_leb (map (fun '(d, idx, b) => if b : bool then (idx, r) else (idx, d)) ents),
          concat (map (fun '(d, idx, b) => if b : bool then [d] else []) ents)).

(** IndexMap.cpp:276-279: the chosen owner of an index. *)
Definition sub_owner (poss : list (nat * nat)) (idx : nat) : option nat :=
  match nth_error poss (lower_bound_by fst poss idx) with
  | Some (i, o) => if i =? idx then Some o else None
  | None => None
  end.

(** IndexMap.cpp:264-318: owners for every received index; for every sender the other
    ranks that have an index it now owns. *)
Definition sub_owners (r : nat) : option (list nat * list nat) :=
  '(poss, _) <- sub_possible r ;;
  '(recv_indices, recv_sizes) <- sub_recv r ;;
  owners <- omap (sub_owner poss) recv_indices ;;
  Some (owners, recv_sizes).
Definition sub_new_dest (r : nat) : option (sbuf nat) :=
  '(poss, _) <- sub_possible r ;;
  blocks <- sub_blocks r ;;
  lists <- omap (fun db : nat * list nat =>
             per <- omap (fun idx =>
                      o <- sub_owner poss idx ;;
                      Some (if o =? fst db then
                              let it := skipn (lower_bound_by fst poss idx) poss in
                              map snd (tl (firstn (prefix_len (fun e => fst e <=? idx) it) it))
                            else [])) (snd db) ;;
             Some (sort_uniq (concat per))) blocks ;;
  let sizes := map (@length nat) lists in
  Some (concat lists, (sizes, psums sizes)).

(** A submap before renumbering. *)
Record submap := mkSub { sb_owned : list nat; sb_ghost : list nat; sb_owners : list nat;
                         sb_src : list nat; sb_dest : list nat }.

(** IndexMap.cpp:178-447 *)
Definition compute_submap_indices (r : nat) : option submap :=
  let m := maps r in
  '((send_indices, _), _) <- sub_send r ;;
  '(_, dest0) <- sub_possible r ;;
  recv_owners <- reply (fun q => im_src (maps q)) (fun q => im_dest (maps q)) sub_owners sub_send r ;;
  '(recv_dest_ranks, _) <- exchange P (fun q => im_src (maps q)) (fun q => im_dest (maps q)) sub_new_dest r ;;
  let submap_dest := sort_uniq (dest0 ++ recv_dest_ranks) in
  send_indices_local <- omap (fun g => let l := global_to_local m g in
                                       if (0 <=? l)%Z then Some (Z.to_nat l) else None) send_indices ;;
  if length send_indices_local =? length recv_owners then
    let lo := combine send_indices_local recv_owners in
    let submap_owned := filter (fun i => i <? size_local m) (indices r)
                        ++ map fst (filter (fun p => snd p =? r) lo) in
    let ghosts := filter (fun p => negb (snd p =? r)) lo in
    let ghosts := if preserve then isort pair_leb ghosts else ghosts in
    Some (mkSub (isort Nat.leb submap_owned) (map fst ghosts) (map snd ghosts)
                (sort_uniq (map snd ghosts)) submap_dest)
  else None.

(** IndexMap.cpp:463-536.  [subs q] is the submap of rank [q]. *)
Section Ghosts.
Variable subs : nat -> submap.
Variable offset : nat -> nat.

Definition sgi_send (q : nat) : option (sbuf nat * list nat) :=
  let s := subs q in
  global <- omap (local_to_global (maps q)) (sb_ghost s) ;;
  cgo_send (sb_src s) global (sb_owners s) (repeat true (length (sb_ghost s))).
Definition sgi_back (r : nat) : option (list nat * list nat) :=
  '(recv_indices, recv_sizes) <- exchange P (fun q => sb_dest (subs q)) (fun q => sb_src (subs q))
                                          (fun q => '(s, _) <- sgi_send q ;; Some s) r ;;
  gidx <- omap (fun g => let l := global_to_local (maps r) g in
                         if (0 <=? l)%Z then
                           k <- find_sorted (sb_owned (subs r)) (Z.to_nat l) ;; Some (k + offset r)
                         else None) recv_indices ;;
  Some (gidx, recv_sizes).
Definition compute_submap_ghost_indices (r : nat) : option (list nat) :=
  '(_, ghost_perm) <- sgi_send r ;;
  recv_gidx <- reply (fun q => sb_src (subs q)) (fun q => sb_dest (subs q)) sgi_back sgi_send r ;;
  ofold (fun v pg => upd v (fst pg) (snd pg)) (combine ghost_perm recv_gidx)
        (repeat 0 (length (sb_ghost (subs r)))).
End Ghosts.

(** IndexMap.cpp:825-862.  The world computation fails if any rank fails. *)
Definition create_sub_index_map (r : nat) : option (imap * list nat) :=
  all <- omap compute_submap_indices (seq 0 P) ;;
  let subs := fun q => nth q all (mkSub [] [] [] [] []) in
  let local_size := fun q => length (sb_owned (subs q)) in
  gidx <- compute_submap_ghost_indices subs (exscan local_size) r ;;
  m <- imap_src_dest P local_size (sb_src (subs r), sb_dest (subs r)) gidx (sb_owners (subs r)) r ;;
  Some (m, sb_owned (subs r) ++ sb_ghost (subs r)).
End Sub.

(** ** stack_index_maps *)
Section Stack.
(** The maps with their block sizes; each is a world of maps. *)
Variable Ms : list ((nat -> imap) * nat).

(** IndexMap.cpp:663-667 *)
Definition st_process_offset (r : nat) : nat :=
  lsum (map (fun mb : (nat -> imap) * nat => im_lo (fst mb r) * snd mb) Ms).
(** IndexMap.cpp:670-675 *)
Definition st_local_offset (r : nat) : list nat :=
  psums (map (fun mb : (nat -> imap) * nat => snd mb * size_local (fst mb r)) Ms).
(** IndexMap.cpp:678-689: sets, in increasing order. *)
Definition st_src (r : nat) : list nat := sort_uniq (concat (map (fun mb : (nat -> imap) * nat => im_src (fst mb r)) Ms)).
Definition st_dest (r : nat) : list nat := sort_uniq (concat (map (fun mb : (nat -> imap) * nat => im_dest (fst mb r)) Ms)).

(** IndexMap.cpp:711-810, for map number [k]. *)
Definition st_send (maps : nat -> imap) (q : nat) : option (sbuf nat * list nat) :=
  cgo_send (st_src q) (im_ghosts (maps q)) (im_owners (maps q)) (repeat true (num_ghosts (maps q))).
Definition st_back (k : nat) (maps : nat -> imap) (bs : nat) (r : nat) : option (list nat * list nat) :=
  '(recv_indices, recv_sizes) <- exchange P st_dest st_src (fun q => '(s, _) <- st_send maps q ;; Some s) r ;;
  off <- nth_error (st_local_offset r) k ;;
  news <- omap (fun idx => if im_lo (maps r) <=? idx then
                             Some (bs * (idx - im_lo (maps r)) + (off + st_process_offset r))
                           else None) recv_indices ;;
  Some (news, recv_sizes).
Definition st_one (k : nat) (maps : nat -> imap) (bs : nat) (r : nat) : option (list nat * list nat) :=
  '((_, (send_sizes, send_disp)), pos) <- st_send maps r ;;
  ghosts_new_idx <- reply st_src st_dest (st_back k maps bs) (st_send maps) r ;;
  ofold (fun st i =>
    rank <- nth_error (st_src r) i ;;
    a <- nth_error send_disp i ;; b <- nth_error send_disp (S i) ;;
    ofold (fun st j =>
      p <- nth_error pos j ;; g <- nth_error ghosts_new_idx j ;;
      ofold (fun '(gi, ow) c =>
               gi' <- upd gi (bs * p + c) (g + c) ;; ow' <- upd ow (bs * p + c) rank ;; Some (gi', ow'))
            (seq 0 bs) st) (seq a (b - a)) st)
    (seq 0 (length send_disp - 1))
    (repeat 0 (bs * num_ghosts (maps r)), repeat 0 (bs * num_ghosts (maps r))).

(** IndexMap.cpp:656-823; [maps.at(0)] throws for an empty list. *)
Definition stack_index_maps (r : nat) : option (nat * list nat * list (list nat) * list (list nat)) :=
  match Ms with
  | [] => None
  | _ =>
    gs <- omap (fun kmb : nat * ((nat -> imap) * nat) => st_one (fst kmb) (fst (snd kmb)) (snd (snd kmb)) r)
               (combine (seq 0 (length Ms)) Ms) ;;
    Some (st_process_offset r, st_local_offset r, map fst gs, map snd gs)
  end.
End Stack.
End SubMap.
