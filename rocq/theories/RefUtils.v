(** Model of [adjust_indices], [transfer_cell_meshtag] and [transfer_facet_meshtag]
    (cpp/dolfinx/refinement/utils.cpp).  Simplifications: of a topology only its tables are
    kept; tag values are integers; cell and facet numbers fit in 32-bit integers where the
    theorems say so. *)
From Coq Require Import NArith.
From Verif Require Import Base Algo World IndexMap Sort.
Open Scope nat_scope.

Section Adjust.
Variables (P : nat) (maps : nat -> imap) (n : nat -> nat).
(** utils.cpp:105-125: the offsets of the source ranks; MPI_Neighbor_allgather sends the
    same value to every destination. *)
Definition adjust_offsets (r : nat) : option (list nat) :=
  neigh_alltoall P (fun q => im_src (maps q)) (fun q => im_dest (maps q))
    (fun q => Some (map (fun _ => exscan n q) (im_dest (maps q)))) r.
(** utils.cpp:98-151; [lower_bound] followed by a failing [assert] is [None]. *)
Definition adjust_indices (r : nat) : option (list nat) :=
  let m := maps r in
  offsets <- adjust_offsets r ;;
  ghosts <- omap (fun io : nat * nat => rank <- find_sorted (im_src m) (snd io) ;; o <- nth_error offsets rank ;; Some (fst io + o))
                 (combine (im_ghosts m) (im_owners m)) ;;
  Some (map (fun x => x + exscan n r) (seq (im_lo m) (size_local m)) ++ ghosts).
End Adjust.

(** utils.cpp:180-190, 292-302: the asserts are [None]. *)
Definition local_cell_index (original : list nat) (offset : nat) : option (list nat) :=
  ofold (fun lci i => o <- nth_error original i ;;
           if o <? offset then None else upd lci (o - offset) i) (seq 0 (length original)) (repeat 0 (length original)).

(** utils.cpp:202-204, 247-256 and 304-324: counts, offsets, data of the lists of children,
    for (parent, child) pairs in the order of the loops. *)
Definition children (num : nat) (pairs : list (nat * nat)) : option (list nat * list nat) :=
  count <- count_keys num (map fst pairs) ;;
  let offsets := psums count in
  '(_, data) <- ofold place pairs (offsets, repeat 0 (last offsets 0)) ;;
  Some (data, offsets).

(** utils.cpp:269-280, 346-357: the arrays sorted by index. *)
Definition sort_tags (indices : list nat) (values : list Z) : option (list nat * list Z) :=
  order <- radix_sort_signed 32 8 (fun i => nth i (map Z.of_nat indices) 0%Z) (seq 0 (length values)) ;;
  is <- omap (nth_error indices) order ;;
  vs <- omap (nth_error values) order ;;
  Some (is, vs).

(** utils.cpp:284-360.  [dim_ok] is the test on the dimension of the tags, [ghosted] that on
    the ghost cells; [original] and [offset] belong to the refined topology; [cell] is the
    parent of each new cell. *)
Definition transfer_cell_meshtag (dim_ok ghosted : bool) (num_cells : nat) (original : list nat) (offset : nat)
    (cell : list nat) (indices : list nat) (values : list Z) : option (list nat * list Z) :=
  if negb dim_ok then None else if ghosted then None else
  lci <- local_cell_index original offset ;;
  pairs <- omap (fun c => pc <- nth_error cell c ;; lc <- nth_error lci c ;; Some (pc, lc)) (seq 0 (length cell)) ;;
  '(data, offsets) <- children num_cells pairs ;;
  '(is, vs) <- ofold (fun '(is, vs) i =>
      p <- nth_error indices i ;; v <- nth_error values i ;;
      l <- slice_at data offsets p ;;
      Some (is ++ l, vs ++ repeat v (length l))) (seq 0 (length indices)) ([], []) ;;
  sort_tags is vs.

(** utils.cpp:154-282.  [facet] is the parent facet of each facet of the new cells (-1: none),
    [c_to_f] and [c_to_f1] the cell-facet connectivities of the two topologies ([None]:
    missing).  The links of a tagged parent facet are sorted in place; they are read once,
    since the indices of tags are unique. *)
Definition transfer_facet_meshtag (ghosted : bool) (tdim num_facets : nat) (c_to_f c_to_f1 : option (list (list nat)))
    (original : list nat) (offset : nat) (cell : list nat) (facet : list Z) (indices : list nat) (values : list Z)
    : option (list nat * list Z) :=
  if ghosted then None else
  cf <- c_to_f ;;
  lci <- local_cell_index original offset ;;
  cf1 <- c_to_f1 ;;
  pairs <- omap (fun c =>
      pc <- nth_error cell c ;; facets <- nth_error cf pc ;;
      lc <- nth_error lci c ;; refined <- nth_error cf1 lc ;;
      ps <- omap (fun j =>
        fidx <- nth_error facet (c * S tdim + j) ;;
        if (fidx =? -1)%Z then Some [] else
        if (fidx <? 0)%Z then None else
        f <- nth_error facets (Z.to_nat fidx) ;; k <- nth_error refined j ;; Some [(f, k)]) (seq 0 (S tdim)) ;;
      Some (concat ps)) (seq 0 (length cell)) ;;
  '(data, offsets) <- children num_facets (concat pairs) ;;
  '(is, vs) <- ofold (fun '(is, vs) i =>
      p <- nth_error indices i ;; v <- nth_error values i ;;
      l <- slice_at data offsets p ;;
      let u := sort_uniq l in
      Some (is ++ u, vs ++ repeat v (length u))) (seq 0 (length indices)) ([], []) ;;
  sort_tags is vs.
