(** Model of cpp/dolfinx/graph/partition.cpp: the two overloads of [distribute].

    Simplifications: an adjacency list and an array of rows are lists of rows (theorem C01);
    the send buffer is the list of its rows of [buffer_shape1] integers, which MPI moves
    with a contiguous data type; [int64_t] is unbounded.  A write or read outside a row, a
    failing [assert] and [front] of an empty list are [None]. *)
From Verif Require Import Base Algo World IndexMap PostOffice.
Open Scope nat_scope.

(** partition.cpp:70-80, 255-265: (dest, (index, owning rank)) *)
Definition dest_list (destinations : list (list nat)) : option (list (nat * (nat * nat))) :=
  l <- omap (fun i => di <- nth_error destinations i ;; d0 <- hd_error di ;;
                      Some (map (fun d => (d, (i, d0))) di)) (seq 0 (length destinations)) ;;
  Some (concat l).

(** partition.cpp:82-107, 267-292: destination ranks, items for each, and (index, owning
    rank) of the items in the order of sending. *)
Definition dist_plan (destinations : list (list nat)) : option (list nat * (list nat * list (nat * nat))) :=
  l <- dest_list destinations ;;
  let dest_to_index := ksort l in
  rs <- key_runs (length dest_to_index) dest_to_index ;;
  Some (map fst rs, (map (fun r => length (snd r)) rs, map snd dest_to_index)).

(** The variables below are those of every rank. *)
Section Send.
Variables (P : nat) (nbx : (nat -> list nat) -> nat -> list nat).
Variable destinations : nat -> list (list nat).
(** The row written for item (index, owning rank) on rank [q] *)
Variable encode : nat -> nat * nat -> option (list Z).

Definition dist_dest (q : nat) : list nat := match dist_plan (destinations q) with Some (d, _) => d | None => [] end.
(** partition.cpp:109-112, 294-297 *)
Definition dist_src (q : nat) : list nat := isort Nat.leb (nbx dist_dest q).
(** partition.cpp:129-153, 314-338 *)
Definition dist_send (q : nat) : option (sbuf (list Z)) :=
  '(_, (num_items_per_dest, items)) <- dist_plan (destinations q) ;;
  rows <- omap (encode q) items ;;
  Some (rows, (num_items_per_dest, psums num_items_per_dest)).
(** partition.cpp:120-127, 155-170, 305-312, 340-355; and the loops of 191-196, 365-370: the
    received rows with their source rank. *)
Definition dist_recv (r : nat) : option (list (nat * list Z)) :=
  _ <- dist_send r ;;
  '(recv_buffer, num_items_recv) <- exchange P dist_src dist_dest dist_send r ;;
  bs <- omap (fun p => src_rank <- nth_error (dist_src r) p ;; b <- slice_at recv_buffer (psums num_items_recv) p ;;
                       Some (map (pair src_rank) b)) (seq 0 (length num_items_recv)) ;;
  Some (concat bs).
End Send.

(** One of the two lists (owned nodes, ghosts) that are filled: data, offsets, source ranks,
    original global indices. *)
Record part := mkPart { pt_data : list Z; pt_offsets : list Z; pt_src : list nat; pt_global : list Z }.
Definition empty_part : part := mkPart [] [0%Z] [] [].
Definition push (p : part) (src : nat) (edges : list Z) (num_edges g : Z) : part :=
  mkPart (pt_data p ++ edges) (pt_offsets p ++ [last (pt_offsets p) 0 + num_edges]%Z)
         (pt_src p ++ [src]) (pt_global p ++ [g]).

(** ** Adjacency list, partition.cpp:38-234 *)
Section AdjList.
Variables (P : nat) (nbx : (nat -> list nat) -> nat -> list nat).
Variables (list_ : nat -> list (list Z)) (destinations : nat -> list (list nat)).

(** partition.cpp:49-55 *)
Definition offset_global (q : nat) : nat := lsum (map (fun s => length (list_ s)) (seq 0 q)).
(** partition.cpp:57-63: the number of links of the first node. *)
Definition shape1 : nat := allreduce_max P (fun q => match list_ q with row :: _ => length row | [] => 0 end).

(** partition.cpp:65-67, 137-152: the row is copied into the buffer and the last three
    entries are then overwritten. *)
Definition encode_row (q : nat) (it : nat * nat) : option (list Z) :=
  let '(pos, d0) := it in
  row <- nth_error (list_ q) pos ;;
  if length row <=? shape1 + 3 then
    let b := row ++ repeat (-1)%Z (shape1 + 3 - length row) in
    Some (firstn shape1 b ++ [Z.of_nat (length row); Z.of_nat d0; Z.of_nat (pos + offset_global q)])
  else None.

(** partition.cpp:197-215 *)
Definition unpack_row (rank : nat) (st : part * part * list Z) (m : nat * list Z) : option (part * part * list Z) :=
  let '(own, gh, owners) := st in
  let '(src_rank, row) := m in
  num_edges <- nth_error row shape1 ;; owner <- nth_error row (shape1 + 1) ;; g <- nth_error row (shape1 + 2) ;;
  if (0 <=? num_edges)%Z && (num_edges <=? Z.of_nat (length row))%Z then
    let edges := firstn (Z.to_nat num_edges) row in
    if (owner =? Z.of_nat rank)%Z then Some (push own src_rank edges num_edges g, gh, owners)
    else Some (own, push gh src_rank edges num_edges g, owners ++ [owner])
  else None.

(** partition.cpp:172-233: data and offsets, source ranks, original global indices, owners
    of the ghosts. *)
Definition distribute (r : nat) : option ((list Z * list Z) * (list nat * (list Z * list Z))) :=
  if length (list_ r) =? length (destinations r) then
    rows <- dist_recv P nbx destinations encode_row r ;;
    '(own, gh, owners) <- ofold (unpack_row r) rows (empty_part, empty_part, []) ;;
    let offsets1 := map (fun x => x + last (pt_offsets own) 0)%Z (pt_offsets gh) in
    Some ((pt_data own ++ pt_data gh, pt_offsets own ++ tl offsets1),
          (pt_src own ++ pt_src gh, (pt_global own ++ pt_global gh, owners)))
  else None.
End AdjList.

(** ** Rows of fixed size, partition.cpp:236-401 *)
Section Fixed.
Variables (P : nat) (nbx : (nat -> list nat) -> nat -> list nat).
(** Flattened rows, and shape[1] *)
Variables (list_ : nat -> list Z) (width : nat -> nat) (destinations : nat -> list (list nat)).

(** partition.cpp:244-251 *)
Definition offset_fixed (q : nat) : nat := lsum (map (fun s => length (destinations s)) (seq 0 q)).
(** partition.cpp:322-338 *)
Definition encode_fixed (q : nat) (it : nat * nat) : option (list Z) :=
  let '(pos, d0) := it in
  row <- slice (list_ q) (pos * width q) (pos * width q + width q) ;;
  Some (row ++ [Z.of_nat d0; Z.of_nat (pos + offset_fixed q)]).
(** partition.cpp:371-388; a message made of rows of another length is an error. *)
Definition unpack_fixed (rank : nat) (st : part * part * list Z) (m : nat * list Z) : option (part * part * list Z) :=
  let '(own, gh, owners) := st in
  let '(src_rank, row) := m in
  if length row =? width rank + 2 then
    owner <- nth_error row (width rank) ;; g <- nth_error row (width rank + 1) ;;
    let edges := firstn (width rank) row in
    if (owner =? Z.of_nat rank)%Z then Some (push own src_rank edges 0%Z g, gh, owners)
    else Some (own, push gh src_rank edges 0%Z g, owners ++ [owner])
  else None.
(** partition.cpp:236-401 *)
Definition distribute_fixed (r : nat) : option (list Z * (list nat * (list Z * list Z))) :=
  if length (list_ r) =? length (destinations r) * width r then
    rows <- dist_recv P nbx destinations encode_fixed r ;;
    '(own, gh, owners) <- ofold (unpack_fixed r) rows (empty_part, empty_part, []) ;;
    Some (pt_data own ++ pt_data gh, (pt_src own ++ pt_src gh, (pt_global own ++ pt_global gh, owners)))
  else None.
End Fixed.
